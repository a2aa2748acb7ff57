(** C65: the output of jobs with -O. *)
From Verif Require Import Base M_Output S_Output P_Output P_Output2 P_Output3 P_Output4 P_Output5 P_Output6.
Open Scope string_scope.
Open Scope list_scope.
Open Scope nat_scope.

(** At any time, what can be seen of a child is a prefix of what it has put out: nothing is lost in between, put in
    another order, or shown twice.  Whatever -O says, and even if the lock cannot be had. *)
Theorem C65_prefix : forall cfg es st m c d, run cfg init es = Some st ->
  prefix (bytes (c_same cfg) d (shown (s_term st) m c)) (bytes (c_same cfg) d (said es m c)).
Proof.
  intros cfg es st m c d R. destruct (run_kept cfg _ _ R m) as [_ Q]. exists (waiting cfg m (s_makes st m) c d). apply Q.
Qed.

(** All of it is there when make has finished the child. *)
Theorem C65_complete : forall cfg es st m c d, run cfg init es = Some st -> In (m, Finish c) es -> not_dumping st m ->
  bytes (c_same cfg) d (shown (s_term st) m c) = bytes (c_same cfg) d (said es m c).
Proof.
  intros cfg es st m c d R I N. symmetry. apply all_shown with (1 := R) (2 := N). intros k K.
  destruct (run_fine cfg _ _ R m) as [F _]. destruct (f_finish _ _ _ _ F c I) as [(k0 & K0 & D) | C].
  - right. left. congruence.
  - unfold closing in C. unfold not_dumping in N. rewrite N in C. destruct C.
Qed.

(** A command that runs another make (but for -Orecurse) is not held back; and what was held back before it is
    written before it starts. *)
Theorem C65_direct : forall cfg a b st m c d, c_mode cfg <> M_recurse ->
  run cfg init (a ++ (m, Start c true) :: b) = Some st -> (forall r, ~ In (m, Start c r) b) -> not_dumping st m ->
  bytes (c_same cfg) d (shown (s_term st) m c) = bytes (c_same cfg) d (said (a ++ (m, Start c true) :: b) m c).
Proof. intros. symmetry. apply run_direct; auto. Qed.

(** -Oline: the output of a line has been written before the next one is started. *)
Theorem C65_line : forall cfg a b st m c d, c_mode cfg = M_line -> run cfg init (a ++ (m, Next c) :: b) = Some st ->
  not_dumping st m -> prefix (bytes (c_same cfg) d (said a m c)) (bytes (c_same cfg) d (shown (s_term st) m c)).
Proof. intros. eapply run_line; eauto. Qed.

(** The makes write in turn: each dump is one block, with nothing of another dump inside. *)
Theorem C65_blocks : forall cfg es st, run cfg init es = Some st -> locks es -> (forall m, not_dumping st m) ->
  dumps (directory cfg) (releases es) (filter e_dump (s_term st)).
Proof.
  intros cfg es st R L N. destruct (run_cut cfg _ _ R L) as (bs & part & X). rewrite (x_term _ _ _ _ _ X).
  assert (P : part = []).
  { apply (x_free _ _ _ _ _ X). destruct (s_lock st) as [m|] eqn:LK; auto. destruct (x_lock _ _ _ _ _ X m LK) as (c & cl & l & T & _).
    specialize (N m). unfold not_dumping in N. congruence. }
  rewrite P, app_nil_r, <- (x_rel _ _ _ _ _ X). apply cut_dumps. exact (x_blocks _ _ _ _ _ X).
Qed.

(** The same in the middle of a dump: all but the last block are whole. *)
Theorem C65_blocks_so_far : forall cfg es st, run cfg init es = Some st -> locks es ->
  exists l part, filter e_dump (s_term st) = l ++ part /\ dumps (directory cfg) (releases es) l /\
    (part = [] \/ exists m c rest, ~ not_dumping st m /\ block (directory cfg) m c (part ++ rest)).
Proof.
  intros cfg es st R L. destruct (run_cut cfg _ _ R L) as (bs & part & X). exists (concat (map snd bs)), part.
  split; [apply (x_term _ _ _ _ _ X)|]. split; [rewrite <- (x_rel _ _ _ _ _ X); apply cut_dumps; exact (x_blocks _ _ _ _ _ X)|].
  destruct (s_lock st) as [m|] eqn:LK; [right | left; apply (x_free _ _ _ _ _ X LK)].
  destruct (x_lock _ _ _ _ _ X m LK) as (c & cl & l & T & B). exists m, c, l. split; auto. unfold not_dumping. congruence.
Qed.

(** For the examples. *)
Definition end_of (cfg : config) (es : list (nat * event)) : state := match run cfg init es with Some st => st | None => init end.
Lemma ran : forall cfg es, (match run cfg init es with Some _ => true | None => false end) = true -> run cfg init es = Some (end_of cfg es).
Proof. intros cfg es H. unfold end_of. destruct (run cfg init es); [reflexivity | discriminate]. Qed.
Definition texts (l : list entry) : list (nat * string) :=
  map (fun e => (e_make e, match e_what e with Text _ t => string_of_list_ascii t | Enter => "Entering" | Leave => "Leaving" end)) l.

(** If fcntl fails, blocks are mixed (src/output.c:367-370 says so). *)
Definition mixed_cfg := mkconfig M_target false false 1.
Definition mixed_run : list (nat * event) :=
  [(0, New 0); (1, New 0); (0, Start 0 false); (1, Start 0 false); (0, Run 0); (1, Run 0);
   (0, Write 0 false (s2l "ab")); (1, Write 0 false (s2l "cd")); (0, Exit 0); (1, Exit 0); (0, Finish 0); (1, Finish 0);
   (0, Acquire true); (1, Acquire false); (0, Pump); (1, Pump); (0, Pump); (1, Pump); (0, Release); (1, Release)].
Theorem C65_unlocked_refuted : exists cfg es st, run cfg init es = Some st /\ (forall m, not_dumping st m) /\
  ~ dumps (directory cfg) (releases es) (filter e_dump (s_term st)).
Proof.
  exists mixed_cfg, mixed_run, (end_of mixed_cfg mixed_run). split; [apply ran; vm_compute; reflexivity|]. split.
  - intros m. unfold not_dumping. destruct m as [|[|m]]; vm_compute; reflexivity.
  - assert (T : filter e_dump (s_term (end_of mixed_cfg mixed_run)) =
      [text_for 0 0 false (s2l "a"); text_for 1 0 false (s2l "c"); text_for 0 0 false (s2l "b"); text_for 1 0 false (s2l "d")]) by (vm_compute; reflexivity).
    rewrite T. clear T. change (releases mixed_run) with [0; 1]. change (directory mixed_cfg) with false. intros H.
    inversion H as [| ms l m c b D B E1 E2]. apply (app_inj_tail ms [0]) in E1. destruct E1 as [-> ->].
    inversion D as [| ms' l' m' c' b' D' B' E3 E4]. apply (app_inj_tail ms' []) in E3. destruct E3 as [-> ->].
    inversion D' as [E5 E6 | ms3 l3 m3 c3 b3 D3 B3 E5 E6]; [| destruct ms3; discriminate E5]. subst l'. cbn in *. subst l.
    pose proof (block_kid mixed_cfg 0 c' b' B') as F0. pose proof (block_kid mixed_cfg 1 c b B) as F1.
    destruct b' as [| x0 b']; [inversion B'; destruct outs, errs; cbn in *; try discriminate; tauto|].
    cbn in E2. injection E2 as E0 E2. destruct b' as [| x1 b'].
    + cbn in E2. subst b. inversion F1 as [|? ? _ F1']. inversion F1' as [|? ? G1 _]. destruct G1 as [G1 _]. discriminate G1.
    + cbn in E2. injection E2 as E1 E2. inversion F0 as [|? ? _ F0']. inversion F0' as [|? ? G0 _]. subst x1. destruct G0 as [G0 _]. discriminate G0.
Qed.

(** Nothing of a child that is held back can be seen before it is finished ... *)
Theorem C65_held : forall cfg es st m c, held_back cfg es m c -> locks es -> run cfg init es = Some st -> ~ In (m, Finish c) es ->
  forall e, In e (s_term st) -> of_kid m c e = false.
Proof.
  intros cfg es st m c H L R N e I. destruct (of_kid m c e) eqn:O; auto. exfalso.
  destruct (run_fine cfg _ _ R m) as [F A]. pose proof (A c e H I O) as D. destruct (run_cut cfg _ _ R L) as (bs & part & X).
  assert (J : In e (filter e_dump (s_term st))) by (apply filter_In; auto). rewrite (x_term _ _ _ _ _ X) in J.
  unfold of_kid in O. apply andb_true_iff in O. destruct O as [O1 O2]. apply Nat.eqb_eq in O1.
  assert (OK : forall m1 c1 b, block (directory cfg) m1 c1 b -> In e b -> m1 = m /\ c1 = c).
  { intros m1 c1 b B J1. apply block_kid in B. rewrite Forall_forall in B. destruct (B _ J1) as [B1 [B2 | B2]]; rewrite B2 in O2; [discriminate|].
    apply Nat.eqb_eq in O2. split; congruence. }
  apply in_app_or in J. destruct J as [J|J].
  - apply in_concat in J. destruct J as (b & J1 & J2). apply in_map_iff in J1. destruct J1 as ([[m1 c1] b1] & <- & J1). cbn in J2.
    pose proof (x_blocks _ _ _ _ _ X) as XB. rewrite Forall_forall in XB. destruct (OK m1 c1 b1 (XB _ J1) J2) as [-> ->].
    apply (x_tags _ _ _ _ _ X m c H).
    + intros k K. destruct (k_done k) eqn:Dk; auto. destruct N. eapply f_done; eauto.
    + apply in_map_iff. eexists. split; [|exact J1]. reflexivity.
  - destruct (s_lock st) as [m1|] eqn:LK; [|rewrite (x_free _ _ _ _ _ X LK) in J; destruct J].
    destruct (x_lock _ _ _ _ _ X m1 LK) as (c1 & cl & l & T & B). destruct (OK m1 c1 (part ++ l) B) as [-> ->]; [apply in_or_app; auto|].
    apply N. eapply f_close; eauto. eapply f_held; eauto. unfold task_kid. rewrite T. reflexivity.
Qed.

(** ... and then all of it is one block. *)
Theorem C65_one_block : forall cfg es st m c, held_back cfg es m c -> locks es -> run cfg init es = Some st -> In (m, Finish c) es ->
  not_dumping st m -> said es m c <> [] -> (forall x, In x (said es m c) -> snd x <> []) ->
  exists l b r, filter e_dump (s_term st) = l ++ b ++ r /\ block (directory cfg) m c b /\
    (forall d, bytes (c_same cfg) d (shown b m c) = bytes (c_same cfg) d (said es m c)) /\
    (forall e, In e (s_term st) -> of_kid m c e = true -> e_dump e = true) /\
    (forall e, In e (l ++ r) -> of_kid m c e = false).
Proof.
  intros cfg es st m c H L R I N SN SE. destruct (run_fine cfg _ _ R m) as [F A]. destruct (run_cut cfg _ _ R L) as (bs & part & X).
  assert (NP : Forall (fun e => of_kid m c e = false) part).
  { destruct (s_lock st) as [m1|] eqn:LK; [|rewrite (x_free _ _ _ _ _ X LK); auto]. destruct (x_lock _ _ _ _ _ X m1 LK) as (c1 & cl & l & T & B).
    assert (m1 <> m) by (intros ->; unfold not_dumping in N; congruence).
    apply block_kid in B. apply Forall_app in B. destruct B as [B _]. eapply Forall_impl; [|exact B]. cbn. intros e [E _]. unfold of_kid. rewrite E.
    apply Nat.eqb_neq in H0. rewrite H0. reflexivity. }
  assert (NT : forall b : tag * list entry, In b bs -> (fst (fst b) =? m) && (snd (fst b) =? c) = false -> Forall (fun e => of_kid m c e = false) (snd b)).
  { intros b J Q. pose proof (x_blocks _ _ _ _ _ X) as XB. rewrite Forall_forall in XB. specialize (XB _ J). apply block_kid in XB.
    eapply Forall_impl; [|exact XB]. cbn. intros e [E1 E2]. unfold of_kid. rewrite E1. destruct E2 as [E2|E2]; rewrite E2; [apply andb_false_r | exact Q]. }
  assert (CN : forall l, (forall b, In b l -> In b bs /\ (fst (fst b) =? m) && (snd (fst b) =? c) = false) -> Forall (fun e => of_kid m c e = false) (concat (map snd l))).
  { induction l as [| b l IH]; intros Q; cbn; auto. apply Forall_app. split; [apply NT; apply Q; left; auto | apply IH; intros b' J; apply Q; right; auto]. }
  pose proof (x_once _ _ _ _ _ X m c H) as ONE.
  assert (SH : forall d, bytes (c_same cfg) d (shown (filter e_dump (s_term st)) m c) = bytes (c_same cfg) d (said es m c)).
  { intros d. rewrite <- (C65_complete cfg es st m c d R I N). f_equal.
    assert (G : forall t, (forall e, In e t -> of_kid m c e = true -> e_dump e = true) -> shown (filter e_dump t) m c = shown t m c).
    { induction t as [| e t IH]; intros Q; auto. cbn [filter]. change (e :: t) with ([e] ++ t). rewrite (shown_app [e] t), <- IH by (intros; apply Q; [right|]; auto).
      destruct (e_dump e) eqn:D; [change (e :: filter e_dump t) with ([e] ++ filter e_dump t); apply shown_app|].
      rewrite (shown_none [e]); auto. constructor; auto. destruct (of_kid m c e) eqn:O; auto. rewrite (Q e) in D; auto. left. auto. }
    apply G. intros e J O. apply (A c e H J O). }
  destruct (filter (fun b => (fst (fst b) =? m) && (snd (fst b) =? c)) bs) as [| b1 more] eqn:FI.
  - exfalso. assert (Z : forall d, bytes (c_same cfg) d (said es m c) = []).
    { intros d. rewrite <- SH, (x_term _ _ _ _ _ X), shown_app, (shown_none part), app_nil_r by auto. rewrite shown_none; [reflexivity|].
      apply CN. intros b J. split; auto. destruct (_ && _) eqn:Q; auto. match type of FI with ?f = _ => assert (K : In b f) by (apply filter_In; auto) end. rewrite FI in K. destruct K. }
    destruct (said es m c) as [| [err t] s] eqn:SS; [congruence|]. specialize (Z err). unfold bytes in Z. cbn in Z. rewrite eqb_reflx, orb_true_r in Z. cbn in Z.
    apply app_eq_nil in Z. destruct Z as [Z _]. apply (SE (err, t)); [left; auto | exact Z].
  - assert (MORE : more = []) by (cbn in ONE; destruct more; auto; cbn in ONE; lia). subst more.
    match type of FI with ?f = _ => assert (J : In b1 f) by (rewrite FI; left; reflexivity) end. apply filter_In in J. destruct J as [J Q]. cbn beta in Q.
    destruct (in_split _ _ J) as (l & r & SP). assert (QQ := Q). apply andb_true_iff in Q. destruct Q as [Q1 Q2]. apply Nat.eqb_eq in Q1, Q2.
    assert (FF : forall b, In b (l ++ r) -> (fst (fst b) =? m) && (snd (fst b) =? c) = false).
    { intros b Jb. match goal with |- ?x = false => destruct x eqn:Qb; [exfalso | reflexivity] end. rewrite SP, filter_app in FI. cbn [filter] in FI. rewrite QQ in FI.
      assert (LEN : length (filter (fun b0 : nat * nat * list entry => (fst (fst b0) =? m) && (snd (fst b0) =? c)) l) + length (filter (fun b0 : nat * nat * list entry => (fst (fst b0) =? m) && (snd (fst b0) =? c)) r) = 0).
      { apply (f_equal (@length _)) in FI. rewrite app_length in FI. cbn [length] in FI. unfold tag in *. lia. }
      apply in_app_or in Jb. assert (P : forall l0, In b l0 -> length (filter (fun b0 : nat * nat * list entry => (fst (fst b0) =? m) && (snd (fst b0) =? c)) l0) <> 0).
      { intros l0 J0 Z. apply length_zero_iff_nil in Z. assert (K : In b []) by (rewrite <- Z; apply filter_In; auto). destruct K. }
      destruct Jb as [Jb|Jb]; apply P in Jb; lia. }
    assert (INl : forall b, In b l -> In b bs) by (intros; rewrite SP; apply in_or_app; auto).
    assert (INr : forall b, In b r -> In b bs) by (intros; rewrite SP; apply in_or_app; right; right; auto).
    assert (Nl : Forall (fun e => of_kid m c e = false) (concat (map snd l))).
    { apply CN. intros b Jb. split; auto. apply FF, in_or_app. auto. }
    assert (Nr : Forall (fun e => of_kid m c e = false) (concat (map snd r) ++ part)).
    { apply Forall_app. split; auto. apply CN. intros b Jb. split; auto. apply FF, in_or_app. auto. }
    exists (concat (map snd l)), (snd b1), (concat (map snd r) ++ part).
    assert (E : filter e_dump (s_term st) = concat (map snd l) ++ snd b1 ++ concat (map snd r) ++ part).
    { rewrite (x_term _ _ _ _ _ X), SP, map_app, concat_app. cbn. rewrite <- !app_assoc. reflexivity. }
    split; [exact E|]. split.
    { pose proof (x_blocks _ _ _ _ _ X) as XB. rewrite Forall_forall in XB. specialize (XB _ J). rewrite Q1, Q2 in XB. exact XB. }
    split. { intros d. rewrite <- SH, E, shown_app, shown_app, (shown_none _ _ _ Nl), (shown_none _ _ _ Nr), app_nil_r. reflexivity. }
    split. { intros e Je O. apply (A c e H Je O). }
    intros e Je. apply in_app_or in Je. rewrite Forall_forall in Nl, Nr. destruct Je; auto.
Qed.

(** Without -O and with -Orecurse: with -w a make says where it is before anything else it or its children write,
    once, and that it leaves when it ends. *)
Theorem C65_entering : forall cfg es st m, c_mode cfg = M_none \/ c_mode cfg = M_recurse -> c_print cfg = true -> run cfg init es = Some st ->
  made m (s_term st) = [] \/
  exists ts, made m (s_term st) = mkentry m None false Enter :: ts /\ (forall e, In e ts -> e_what e <> Enter) /\
    ((exists e, In e ts /\ e_what e = Leave) <-> In (m, Quit) es).
Proof.
  intros cfg es st m MO PR R. assert (PD : per_dump (c_mode cfg) = false) by (destruct MO as [-> | ->]; reflexivity).
  pose proof (run_told cfg es st m PD PR R) as T. destruct (m_traced (s_makes st m)) eqn:Tr.
  - right. destruct (t_old _ _ _ _ T Tr) as (ts & E & A & B). exists ts. auto.
  - left. apply (t_new _ _ _ _ T Tr).
Qed.

(** These lines are written with -w only; by the dumps with -Oline and -Otarget, otherwise not. *)
Theorem C65_where : forall cfg es st e, run cfg init es = Some st -> In e (s_term st) -> e_what e = Enter \/ e_what e = Leave ->
  c_print cfg = true /\ (e_dump e = true <-> c_mode cfg = M_line \/ c_mode cfg = M_target).
Proof.
  intros cfg es st e R I W. destruct (run_proper cfg _ _ R) as [_ P]. rewrite Forall_forall in P. destruct (P e I W) as [P1 P2]. split; auto.
  rewrite P2. destruct (c_mode cfg); cbn; intuition congruence.
Qed.

(** What can happen next in make [m] and its commands, from what has happened alone: nothing is refused, but for make
    itself while it is inside output_dump. *)
Theorem C65_next : forall cfg es st m e, run cfg init es = Some st -> of_dump e = false ->
  (exists st', run cfg init (es ++ [(m, e)]) = Some st') <-> (may es m e /\ (of_command e = true \/ not_dumping st m)).
Proof.
  intros cfg es st m e R O. rewrite <- (run_may cfg es st m e R O). rewrite (run_app cfg es), R. cbn.
  destruct (step cfg st m e) as [st1|]; split; intros (x & X); try discriminate; eexists; reflexivity.
Qed.

(** No make waits for ever: the one with the lock can go on to the end of its block, and then the next. *)
Theorem C65_ends : forall cfg es st m, run cfg init es = Some st -> locks es ->
  exists es' st', run cfg st es' = Some st' /\ not_dumping st' m /\
    Forall (fun x => snd x = Acquire true \/ snd x = Pump \/ snd x = Release) es'.
Proof. intros. eapply run_ends; eauto. Qed.

(** * A build of two makes *)
Definition two_cfg := mkconfig M_target true false 4.
Definition two_run : list (nat * event) :=
  [(0, New 0); (0, Start 0 false); (0, Say 0 false (s2l "cc a")); (0, Run 0); (1, New 7); (1, Start 7 false); (1, Run 7);
   (0, Write 0 false (s2l "hello")); (1, Write 7 true (s2l "oops")); (0, Write 0 true (s2l "!")); (1, Exit 7); (1, Say 7 true (s2l "error"));
   (1, Finish 7); (1, Acquire true); (0, Exit 0); (1, Pump); (0, Finish 0); (1, Pump); (1, Pump); (1, Pump); (1, Pump); (1, Release);
   (0, Acquire true); (0, Pump); (0, Pump); (0, Pump); (0, Pump); (0, Pump); (0, Pump); (0, Release)].
Definition two_end : state := end_of two_cfg two_run.
Example two_shown : run two_cfg init two_run = Some two_end /\ texts (s_term two_end) =
  [(1, "Entering"); (1, "oops"); (1, "erro"); (1, "r"); (1, "Leaving");
   (0, "Entering"); (0, "cc a"); (0, "hell"); (0, "o"); (0, "!"); (0, "Leaving")].
Proof. split; [apply ran|]; vm_compute; reflexivity. Qed.
Example C65_complete_met : In (0, Finish 0) two_run /\ not_dumping two_end 0 /\
  bytes false false (shown (s_term two_end) 0 0) = s2l "cc ahello" /\ bytes false true (shown (s_term two_end) 0 0) = s2l "!".
Proof. split; [cbn; tauto|]. split; [unfold not_dumping|split]; vm_compute; reflexivity. Qed.
Example C65_blocks_met : locks two_run /\ (forall m, not_dumping two_end m) /\ releases two_run = [1; 0] /\ directory two_cfg = true.
Proof.
  split; [|split; [|split; reflexivity]].
  - intros m I. cbn in I. repeat (destruct I as [I|I]; [discriminate|]). destruct I.
  - intros m. unfold not_dumping. destruct m as [|[|m]]; vm_compute; reflexivity.
Qed.
Example C65_one_block_met : held_back two_cfg two_run 0 0 /\ said two_run 0 0 <> [] /\ (forall x, In x (said two_run 0 0) -> snd x <> []).
Proof.
  split; [|split].
  - right. split; auto. intros I. cbn in I. repeat (destruct I as [I|I]; [discriminate|]). destruct I.
  - discriminate.
  - intros x I. cbn in I. repeat (destruct I as [<-|I]; [discriminate|]). destruct I.
Qed.
(** Before the finish, nothing is there. *)
Example C65_held_met : exists st, run two_cfg init (firstn 12 two_run) = Some st /\ s_term st = [] /\ said (firstn 12 two_run) 0 0 <> [].
Proof. eexists. split; [apply ran; vm_compute; reflexivity|]. split; [vm_compute; reflexivity | discriminate]. Qed.
Example C65_ends_met : exists st, run two_cfg init (firstn 18 two_run) = Some st /\ s_lock st = Some 1 /\ ~ not_dumping st 0.
Proof. eexists. split; [apply ran; vm_compute; reflexivity|]. split; [vm_compute; reflexivity | unfold not_dumping; vm_compute; discriminate]. Qed.

Example C65_next_met : may (firstn 12 two_run) 0 (Exit 0) /\ ~ may (firstn 12 two_run) 0 (Finish 0) /\ may (firstn 12 two_run) 1 (Finish 7) /\ may two_run 0 (New 3).
Proof.
  split; [reflexivity|]. split; [intros [(r & H) _]; discriminate H|].
  split; [split; [eexists; reflexivity|] | split; [reflexivity|]]; intros I; cbn in I; repeat (destruct I as [I|I]; [discriminate|]); destruct I.
Qed.
Example C65_where_met : existsb (fun e => match e_what e with Enter => e_dump e | _ => false end) (s_term two_end) = true.
Proof. vm_compute. reflexivity. Qed.

(** A line that runs another make after one that does not; -Oline; -Orecurse with -w. *)
Definition mix_run : list (nat * event) :=
  [(0, New 0); (0, Start 0 false); (0, Run 0); (0, Write 0 false (s2l "one")); (0, Exit 0); (0, Next 0);
   (0, Start 0 true); (0, Acquire true); (0, Pump); (0, Release); (0, Say 0 false (s2l "make")); (0, Run 0); (0, Write 0 true (s2l "sub"))].
Example C65_direct_met : exists st, run (mkconfig M_target false true 4) init mix_run = Some st /\ not_dumping st 0 /\
  texts (s_term st) = [(0, "one"); (0, "make"); (0, "sub")].
Proof. eexists. split; [apply ran; vm_compute; reflexivity|]. split; [unfold not_dumping|]; vm_compute; reflexivity. Qed.
Definition line_run : list (nat * event) :=
  [(0, New 0); (0, Start 0 false); (0, Run 0); (0, Write 0 false (s2l "one")); (0, Exit 0); (0, Next 0);
   (0, Acquire true); (0, Pump); (0, Release); (0, Start 0 false); (0, Run 0); (0, Write 0 false (s2l "two"))].
Example C65_line_met : exists st, run (mkconfig M_line false true 4) init line_run = Some st /\ not_dumping st 0 /\ texts (s_term st) = [(0, "one")].
Proof. eexists. split; [apply ran; vm_compute; reflexivity|]. split; [unfold not_dumping|]; vm_compute; reflexivity. Qed.
Example C65_entering_met : exists st, run (mkconfig M_recurse true true 4) init
    [(0, New 0); (0, Start 0 true); (0, Run 0); (0, Write 0 false (s2l "x")); (0, Exit 0); (0, Finish 0); (0, Acquire true); (0, Pump); (0, Release); (0, Quit)] = Some st /\
  texts (s_term st) = [(0, "Entering"); (0, "x"); (0, "Leaving")].
Proof. eexists. split; [apply ran|]; vm_compute; reflexivity. Qed.

Print Assumptions C65_prefix.
Print Assumptions C65_complete.
Print Assumptions C65_direct.
Print Assumptions C65_line.
Print Assumptions C65_blocks.
Print Assumptions C65_blocks_so_far.
Print Assumptions C65_unlocked_refuted.
Print Assumptions C65_held.
Print Assumptions C65_one_block.
Print Assumptions C65_entering.
Print Assumptions C65_where.
Print Assumptions C65_next.
Print Assumptions C65_ends.
