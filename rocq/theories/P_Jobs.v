(** Proofs about jobs and the jobserver. *)
From Verif Require Import Base M_Jobs S_Jobs.

(** * Induction over the tree of processes *)

Section JobInd.
Variable Q : job -> Prop.
Hypothesis Hleaf : Q JLeaf.
Hypothesis Hbad : Q JBad.
Hypothesis Hfreed : Q JFreed.
Hypothesis Hexit : forall s, Q (JExited s).
Hypothesis Hmake : forall m, Forall (fun c => Q (c_job c)) (m_chain m) -> Q (JMake m).

Fixpoint job_ind' (j : job) : Q j :=
  match j with
  | JLeaf => Hleaf
  | JBad => Hbad
  | JFreed => Hfreed
  | JExited s => Hexit s
  | JMake m =>
      Hmake m ((fix go (l : list (child job)) : Forall (fun c => Q (c_job c)) l :=
                  match l with
                  | [] => Forall_nil _
                  | c :: l' =>
                      Forall_cons c
                        (match c as c0 return Q (c_job c0) with
                         | Child _ _ j' => job_ind' j'
                         end) (go l')
                  end) (m_chain m))
  end.
End JobInd.

Inductive ok (P : make -> Prop) : job -> Prop :=
  | ok_leaf : ok P JLeaf
  | ok_bad : ok P JBad
  | ok_freed : ok P JFreed
  | ok_exit : forall s, ok P (JExited s)
  | ok_make : forall m, P m -> Forall (fun c => ok P (c_job c)) (m_chain m) ->
      ok P (JMake m).

Lemma ok_in : forall P m j, ok P j -> is_in m j -> P m.
Proof.
  intros P m j Hok Hin. induction Hin.
  - inversion Hok; auto.
  - inversion Hok as [| | | | ? ? HF]; subst. rewrite Forall_forall in HF. auto.
Qed.

(** * Counting *)

Definition isfreed (c : child job) : bool :=
  match c_job c with JFreed => true | _ => false end.
Definition nlive (l : list (child job)) := length (filter (fun c => negb (isfreed c)) l).
Definition nslot (l : list (child job)) :=
  length (filter (fun c => negb (isfreed c) && c_slot c) l).
Definition nfreed (l : list (child job)) := length (filter isfreed l).

Lemma nlive_app : forall a b, nlive (a ++ b) = nlive a + nlive b.
Proof. intros. unfold nlive. rewrite filter_app, app_length. auto. Qed.
Lemma nslot_app : forall a b, nslot (a ++ b) = nslot a + nslot b.
Proof. intros. unfold nslot. rewrite filter_app, app_length. auto. Qed.
Lemma nfreed_app : forall a b, nfreed (a ++ b) = nfreed a + nfreed b.
Proof. intros. unfold nfreed. rewrite filter_app, app_length. auto. Qed.
Lemma nlive_cons : forall c l, nlive (c :: l) = (if isfreed c then 0 else 1) + nlive l.
Proof. intros. unfold nlive. simpl. destruct (isfreed c); auto. Qed.
Lemma nslot_cons : forall c l,
  nslot (c :: l) = (if isfreed c then 0 else if c_slot c then 1 else 0) + nslot l.
Proof. intros. unfold nslot. simpl. destruct (isfreed c), (c_slot c); auto. Qed.
Lemma nfreed_cons : forall c l, nfreed (c :: l) = (if isfreed c then 1 else 0) + nfreed l.
Proof. intros. unfold nfreed. simpl. destruct (isfreed c); auto. Qed.
Lemma nslot_le : forall l, nslot l <= nlive l.
Proof.
  induction l as [|c l IH]; [auto|]. rewrite nslot_cons, nlive_cons.
  destruct (isfreed c), (c_slot c); lia.
Qed.
Lemma nlive_nil : forall l, l = [] -> nlive l = 0.
Proof. intros; subst; auto. Qed.
Lemma nfreed_pos : forall l c, In c l -> c_job c = JFreed -> nfreed l <> 0.
Proof.
  induction l as [|d l IH]; simpl; intros c Hin Hc; [tauto|].
  rewrite nfreed_cons. destruct Hin as [->|Hin].
  - unfold isfreed. rewrite Hc. lia.
  - specialize (IH _ Hin Hc). lia.
Qed.
Lemma nfreed_0 : forall l, (forall c, In c l -> c_job c <> JFreed) -> nfreed l = 0.
Proof.
  induction l as [|d l IH]; simpl; intros H; [auto|].
  rewrite nfreed_cons, IH by auto. unfold isfreed.
  pose proof (H d (or_introl eq_refl)). destruct (c_job d); auto; congruence.
Qed.

Ltac counts := repeat (rewrite ?nlive_app, ?nslot_app, ?nfreed_app, ?nlive_cons,
                        ?nslot_cons, ?nfreed_cons in *).

Lemma isfreed_keep : forall i b j, j <> JFreed -> isfreed (Child i b j) = false.
Proof. intros. unfold isfreed. simpl. destruct j; congruence. Qed.

Lemma newborn_live : forall js j, newborn js j -> j <> JFreed.
Proof. inversion 1; congruence. Qed.

(** * The invariant of every make *)

Record inv (m : make) : Prop := Inv {
  i_tok : m_tokens m = nlive (m_chain m) + length (m_wait m);
  i_used : m_used m <= nslot (m_chain m);
  i_exact : nfreed (m_chain m) = 0 -> m_used m = nslot (m_chain m);
  i_freed : nfreed (m_chain m) <> 0 ->
    match m_pc m with PDie _ | PGone _ | PCrash => True | _ => False end;
  i_pc : match m_pc m with
         | PInternal => False
         | PAsleep => m_tokens m <> 0 /\ m_chain m <> []
         | PCheck => m_tokens m <> 0 -> m_chain m <> []
         | _ => True
         end
}.

Lemma inv_fresh : forall s js k np dbg, inv (fresh s js k np dbg).
Proof. intros. split; simpl; auto. Qed.

Lemma inv_start : forall A high s id p m b p' m',
  starting A (m_js m) s ->
  m_tokens m = S (nlive (m_chain m) + length (m_wait m)) ->
  m_used m = nslot (m_chain m) -> nfreed (m_chain m) = 0 ->
  start_waiting_job high s id p m = (b, (p', m')) ->
  m_tokens m' = nlive (m_chain m') + length (m_wait m') /\
  m_used m' = nslot (m_chain m') /\ nfreed (m_chain m') = 0 /\ m_pc m' = m_pc m /\
  (b = false -> m_chain m' <> []).
Proof.
  intros A high s id p m b p' m' Hs Ht Hu Hf H. unfold start_waiting_job in H.
  destruct ((0 <? m_used m) && high) eqn:E.
  - inversion H; subst; clear H. simpl. repeat split; auto; try lia.
    intros _ Hc. apply andb_prop in E. destruct E as [E _]. apply Nat.ltb_lt in E.
    rewrite Hc in Hu. simpl in Hu. unfold nslot in Hu. simpl in Hu. lia.
  - destruct s as [j| |].
    + inversion H; subst; clear H. simpl.
      inversion Hs as [j0 Hj| |]; subst. pose proof (newborn_live _ _ Hj).
      counts. rewrite isfreed_keep by auto. simpl. repeat split; auto; try lia; congruence.
    + inversion H; subst; clear H. simpl. counts. simpl.
      repeat split; auto; try lia; congruence.
    + unfold free_child in H. destruct (m_tokens m) as [|t]; [lia|].
      inversion H; subst; clear H. simpl. repeat split; auto; try lia; congruence.
Qed.

Lemma inv_launch : forall A high s p m p' m',
  starting A (m_js m) s -> inv m -> nfreed (m_chain m) = 0 ->
  m_pc m <> PInternal ->
  launch high s p m = (p', m') -> inv m'.
Proof.
  intros A high s p m p' m' Hs HI Hf Hp H. unfold launch in H.
  destruct (start_waiting_job high s (m_next m) p (bump (set_tokens (S (m_tokens m)) m)))
    as [b [p1 m1]] eqn:E.
  eapply (inv_start A) in E; simpl; eauto.
  - destruct E as (E1 & E2 & E3 & E4 & E5). simpl in E4.
    assert (Hm' : m' = set_pc (if (m_slots m =? 1) || m_np m then PLinear (m_next m) else PIdle) m1).
    { rewrite E4 in H. destruct (m_pc m); inversion H; auto. congruence. }
    subst m'. split; simpl; auto; try lia; try congruence.
    destruct ((m_slots m =? 1) || m_np m); auto.
  - destruct HI. lia.
  - destruct HI. auto.
Qed.

Lemma pc_clean : forall m, inv m ->
  (forall s, m_pc m <> PDie s) -> (forall s, m_pc m <> PGone s) -> m_pc m <> PCrash ->
  nfreed (m_chain m) = 0.
Proof.
  intros m HI H1 H2 H3. destruct (Nat.eq_dec (nfreed (m_chain m)) 0); auto.
  exfalso. pose proof (i_freed _ HI n). destruct (m_pc m); congruence || tauto.
Qed.

Ltac clean := apply pc_clean; [assumption|congruence..].

Lemma inv_process : forall A o l1 c l2 p m p' m',
  inv m -> (forall c', In c' (m_chain m) -> c_job c' <> JFreed) ->
  m_chain m = l1 ++ c :: l2 -> ended A m (c_job c) o -> reaping m = true ->
  process_child o l1 c l2 p m = (p', m') -> inv m'.
Proof.
  intros A o l1 c l2 p m p' m' HI Hnf Hc He Hr H.
  assert (Hcf : isfreed c = false).
  { unfold isfreed. pose proof (Hnf c ltac:(rewrite Hc; apply in_or_app; simpl; auto)).
    destruct (c_job c); congruence. }
  pose proof (nfreed_0 _ Hnf) as Hf0.
  destruct HI as [It Iu Ie If Ip]. rewrite Hc in *. specialize (Ie Hf0). counts.
  rewrite Hcf in *.
  destruct o as [|f|j]; simpl in H.
  - (* quit *)
    unfold free_child in H. simpl in H. destruct (m_tokens m) as [|t] eqn:Et; [lia|].
    simpl in H.
    destruct (m_pc m) eqn:Epc; try tauto; unfold reaping in Hr; rewrite Epc in Hr;
      try discriminate Hr; inversion H; subst; clear H; split; simpl; auto;
      counts; rewrite ?isfreed_keep by congruence; simpl; try lia;
      destruct (c_slot c); simpl; lia.
  - (* end *)
    unfold free_child in H. simpl in H. destruct (m_tokens m) as [|t] eqn:Et; [lia|].
    simpl in H.
    assert (Hm : exists q, m' = set_pc q (set_tokens t (set_chain (l1 ++ l2)
               (set_used (if c_slot c then pred (m_used m) else m_used m) m))) /\
               match q with PInternal | PAsleep | PCheck | PTop => False | _ => True end).
    { unfold reaping in Hr.
      destruct (m_pc m) eqn:Epc; simpl in *; try tauto; try discriminate Hr;
        destruct (negb (f =? 0) && negb (m_kflag m)); inversion H; subst;
        (eexists; split; [reflexivity | simpl; rewrite ?Epc; auto]). }
    destruct Hm as (q & -> & Hq).
    split; simpl; counts; try lia; destruct (c_slot c); try lia.
    all: try (destruct q; tauto).
  - (* next *)
    inversion H; subst; clear H.
    assert (Hj : j <> JFreed).
    { inversion He; subst; try congruence. eapply newborn_live; eauto. }
    split; simpl; counts; rewrite ?isfreed_keep by auto; simpl; auto; try lia.
    destruct (m_pc m); auto.
    + intros _ Hx. destruct l1; discriminate Hx.
    + split; [tauto|]. intros Hx. destruct l1; discriminate Hx.
Qed.

Lemma inv_pc : forall q m, inv m ->
  match q with PInternal | PAsleep | PCheck => False
             | PDie _ | PGone _ | PCrash => True
             | _ => nfreed (m_chain m) = 0 end -> inv (set_pc q m).
Proof.
  intros q m HI Hq. destruct HI as [a b c d e].
  split; simpl; auto; destruct q; auto; tauto || (intros; congruence).
Qed.

Lemma inv_lstep : forall A p m p' m', lstep A p m p' m' -> inv m -> inv m'.
Proof.
  intros A p m p' m' H HI. inversion H; subst; clear H.
  - apply inv_pc; auto. clean.
  - apply inv_pc; auto. clean.
  - (* sw_none *)
    assert (nfreed (m_chain m) = 0) by clean.
    destruct r; simpl; try (apply inv_pc; auto; fail).
    destruct HI as [a b c d e].
    split; simpl; auto. intros Ht Hc. rewrite a, H1, Hc in Ht. apply Ht. auto.
  - (* sw *)
    assert (Hf : nfreed (m_chain m) = 0) by clean.
    eapply (inv_start A) in H4; simpl; eauto.
    + destruct H4 as (E1 & E2 & E3 & E4 & E5). simpl in E4. rewrite H0 in E4.
      rewrite E4. destruct b.
      * split; auto; try lia. rewrite E4. auto.
      * split; simpl; auto; try lia. destruct r; simpl; auto.
    + destruct HI as [a]. rewrite H1 in a. simpl in a. lia.
    + destruct HI; auto.
  - eapply inv_process; eauto.
  - apply inv_pc; auto.
  - eapply inv_launch; eauto; [clean|congruence].
  - eapply inv_launch; eauto; [clean|congruence].
  - apply inv_pc; auto. clean.
  - eapply inv_launch; eauto; [|destruct H0; congruence]. destruct H0; clean.
  - apply inv_pc; auto. clean.
  - apply inv_pc; auto. clean.
  - exfalso. pose proof (i_pc _ HI) as Hx. rewrite H0 in Hx. exact (Hx H1 H2).
  - destruct HI as [a b c d e]. split; simpl; auto.
    intros Hf. apply d in Hf. rewrite H0 in Hf. auto.
  - eapply inv_launch; eauto; [clean|congruence].
  - apply inv_pc; auto. clean.
  - apply inv_pc; auto. clean.
  - apply inv_pc; simpl; auto.
Qed.

(** * Steps anywhere *)

Lemma jstep_kind : forall A p j p' j' o, jstep A p j p' j' o ->
  (exists m, j = JMake m) /\ ((exists m', j' = JMake m') \/ exists s, j' = JExited s).
Proof. inversion 1; subst; split; eauto. Qed.

Lemma jstep_live : forall A p j p' j' o, jstep A p j p' j' o ->
  j <> JFreed /\ j' <> JFreed /\ j' <> JBad.
Proof.
  intros. destruct (jstep_kind _ _ _ _ _ _ H) as [[m ->] [[m' ->]|[s ->]]];
    repeat split; congruence.
Qed.

Definition shape (m : make) (l : list (child job)) (l' : list (child job)) : Prop :=
  exists l1 c l2 j', l = l1 ++ c :: l2 /\ l' = l1 ++ Child (c_id c) (c_slot c) j' :: l2 /\
    (exists m', c_job c = JMake m') /\ j' <> JFreed /\ j' <> JBad.

Lemma inv_shape : forall m l', inv m -> shape m (m_chain m) l' -> inv (set_chain l' m).
Proof.
  intros m l' HI (l1 & c & l2 & j' & E & -> & H1 & H2 & H3).
  assert (c_job c <> JFreed) by (destruct H1; congruence).
  destruct HI as [It Iu Ie If Ip]. rewrite E in *.
  assert (Hc : isfreed c = false) by (unfold isfreed; destruct (c_job c); congruence).
  counts. rewrite Hc in *.
  split; simpl; counts; rewrite ?isfreed_keep by auto; simpl; auto.
  destruct (m_pc m); auto.
  - intros _ Hx. destruct l1; discriminate Hx.
  - split; [tauto|]. intros Hx. destruct l1; discriminate Hx.
Qed.

Section Generic.
Variable A : allowed.
Variable P : make -> Prop.
Hypothesis P_local : forall p m p' m', lstep A p m p' m' -> P m -> P m'.
Hypothesis P_shape : forall m l', P m -> shape m (m_chain m) l' -> P (set_chain l' m).
Hypothesis P_fresh : forall k np dbg, P (fresh 0 true k np dbg).

Lemma newborn_ok : forall js j, newborn js j -> ok P j.
Proof. inversion 1; subst; [constructor|]. apply ok_make; simpl; auto. Qed.

Notation okc := (fun c : child job => ok P (c_job c)).

Lemma start_ok : forall high s id p m b p' m', starting A (m_js m) s ->
  Forall okc (m_chain m) -> start_waiting_job high s id p m = (b, (p', m')) ->
  Forall okc (m_chain m').
Proof.
  intros high s id p m b p' m' Hs Hc H. unfold start_waiting_job in H.
  destruct ((0 <? m_used m) && high); [inversion H; subst; auto|].
  inversion Hs as [j Hj| |]; subst.
  - inversion H; subst; simpl. constructor; auto. simpl. eapply newborn_ok; eauto.
  - inversion H; subst; simpl. constructor; auto. constructor.
  - unfold free_child in H. destruct (m_tokens m); inversion H; subst; auto.
Qed.

Lemma launch_ok : forall high s p m p' m', starting A (m_js m) s ->
  Forall okc (m_chain m) -> launch high s p m = (p', m') -> Forall okc (m_chain m').
Proof.
  intros high s p m p' m' Hs Hc H. unfold launch in H.
  destruct (start_waiting_job high s (m_next m) p (bump (set_tokens (S (m_tokens m)) m)))
    as [b [p1 m1]] eqn:E.
  apply start_ok in E; simpl; auto.
  destruct (m_pc m1); inversion H; subst; auto.
Qed.

Lemma lstep_ok : forall p m p' m', lstep A p m p' m' -> ok P (JMake m) -> ok P (JMake m').
Proof.
  intros p m p' m' H Hok. inversion Hok as [| | | | ? HP HF]; subst.
  apply ok_make; [eapply P_local; eauto|].
  inversion H; subst; simpl; auto; try (eapply launch_ok; eauto; fail).
  - apply start_ok in H4; simpl; auto. destruct (m_pc m'0); simpl; auto; destruct b; auto.
  - rewrite H2 in HF. apply Forall_app in HF. destruct HF as [F1 F2].
    inversion F2 as [|? ? F3 F4]; subst.
    destruct o as [|f|j]; simpl in H4.
    + unfold free_child in H4. simpl in H4.
      destruct (m_tokens m).
      * inversion H4; subst; simpl. rewrite H2. apply Forall_app; auto.
      * simpl in H4. destruct (m_pc m); inversion H4; subst; simpl;
          try (rewrite H2); apply Forall_app; split; auto; constructor; simpl; auto; constructor.
    + unfold free_child in H4. simpl in H4.
      destruct (m_tokens m).
      * inversion H4; subst; simpl. apply Forall_app; auto.
      * simpl in H4. destruct (m_pc m); destruct (negb (f =? 0) && negb (m_kflag m));
          inversion H4; subst; simpl; apply Forall_app; auto.
    + inversion H4; subst; simpl. apply Forall_app; split; auto. constructor; auto. simpl.
      inversion H3; subst; try constructor. eapply newborn_ok; eauto.
Qed.

Lemma jstep_ok : forall p j p' j' o, jstep A p j p' j' o -> ok P j ->
  ok P j' /\ Forall (ok P) o.
Proof.
  intros p j p' j' o H. induction H; intros Hok.
  - split; auto. eapply lstep_ok; eauto.
  - split; [constructor|]. inversion Hok as [| | | | ? HP HF]; subst.
    apply Forall_map. auto.
  - split; [constructor|]. inversion Hok as [| | | | ? HP HF]; subst.
    apply Forall_map. auto.
  - inversion Hok as [| | | | ? HP HF]; subst. rewrite H in HF.
    apply Forall_app in HF. destruct HF as [F1 F2].
    inversion F2 as [|? ? F3 F4]; subst. destruct (IHjstep F3) as [F5 F6].
    split; auto. apply ok_make.
    + apply P_shape; auto. exists l1, c, l2, j'. destruct (jstep_live _ _ _ _ _ _ H0) as (? & ? & ?).
      destruct (jstep_kind _ _ _ _ _ _ H0) as [? _]. auto 10.
    + simpl. apply Forall_app; split; auto.
Qed.

Lemma reach_ok : forall w0 w, reach A w0 w -> Forall (ok P) (snd w0) -> Forall (ok P) (snd w).
Proof.
  intros w0 w H H0. induction H; auto.
  inversion H1; subst; simpl in *.
  - apply Forall_app in IHreach. destruct IHreach as [F1 F2].
    inversion F2 as [|? ? F3 F4]; subst. destruct (jstep_ok _ _ _ _ _ H2 F3).
    apply Forall_app; split; auto. constructor; auto. apply Forall_app; auto.
  - apply Forall_app in IHreach. destruct IHreach as [F1 F2]. inversion F2; subst.
    apply Forall_app; auto.
Qed.

End Generic.

(** * Jobserver mode *)

Definition jsmode (m : make) : Prop := m_js m = true /\ m_slots m = 0.

Lemma fields_free : forall p m p' m', free_child p m = (p', m') ->
  m_js m' = m_js m /\ m_slots m' = m_slots m /\ m_np m' = m_np m /\ m_chain m' = m_chain m.
Proof. intros p m p' m' H. unfold free_child in H. destruct (m_tokens m); inversion H; auto. Qed.

Lemma fields_start : forall high s id p m b p' m',
  start_waiting_job high s id p m = (b, (p', m')) ->
  m_js m' = m_js m /\ m_slots m' = m_slots m /\ m_np m' = m_np m.
Proof.
  intros high s id p m b p' m' H. unfold start_waiting_job in H.
  destruct ((0 <? m_used m) && high); [inversion H; auto|].
  destruct s; try (inversion H; auto; fail).
  destruct (free_child p m) as [p1 m1] eqn:E. inversion H; subst.
  apply fields_free in E. tauto.
Qed.

Lemma fields_launch : forall high s p m p' m', launch high s p m = (p', m') ->
  m_js m' = m_js m /\ m_slots m' = m_slots m /\ m_np m' = m_np m.
Proof.
  intros high s p m p' m' H. unfold launch in H.
  destruct (start_waiting_job high s (m_next m) p (bump (set_tokens (S (m_tokens m)) m)))
    as [b [p1 m1]] eqn:E.
  apply fields_start in E. simpl in E. destruct (m_pc m1); inversion H; subst; auto.
Qed.

Lemma fields_process : forall o l1 c l2 p m p' m', process_child o l1 c l2 p m = (p', m') ->
  m_js m' = m_js m /\ m_slots m' = m_slots m /\ m_np m' = m_np m.
Proof.
  intros o l1 c l2 p m p' m' H. destruct o as [|f|j]; simpl in H.
  - unfold free_child in H. simpl in H. destruct (m_tokens m); [inversion H; auto|].
    simpl in H. destruct (m_pc m); inversion H; auto.
  - unfold free_child in H. simpl in H. destruct (m_tokens m); [inversion H; auto|].
    simpl in H. destruct (m_pc m); destruct (negb (f =? 0) && negb (m_kflag m));
      inversion H; auto.
  - inversion H; auto.
Qed.

Lemma fields_lstep : forall A p m p' m', lstep A p m p' m' ->
  m_js m' = m_js m /\ m_slots m' = m_slots m /\ m_np m' = m_np m.
Proof.
  intros A p m p' m' H. inversion H; subst; simpl; auto;
    try (eapply fields_launch; eauto; fail).
  - apply fields_start in H4. simpl in H4. destruct (m_pc m'0); simpl; auto; destruct b; auto.
  - eapply fields_process; eauto.
Qed.

Definition jinv (m : make) : Prop := inv m /\ jsmode m.

Lemma jinv_reach : forall A n k np dbg w, reach A (start_jobserver n k np dbg) w ->
  Forall (ok jinv) (snd w).
Proof.
  intros A n k np dbg w H. eapply (reach_ok A jinv) in H; eauto.
  - intros p m p' m' Hs [H1 [H2 H3]]. pose proof (fields_lstep _ _ _ _ _ Hs) as (F1 & F2 & _).
    split; [eapply inv_lstep; eauto|]. split; congruence.
  - intros m l' [H1 H2] Hsh. split; [apply inv_shape; auto|auto].
  - intros. split; [apply inv_fresh|split; auto].
  - simpl. constructor; auto. apply ok_make; simpl; auto.
    split; [apply inv_fresh|split; auto].
Qed.

Lemma inv_reach : forall A w0 w, reach A w0 w ->
  Forall (ok inv) (snd w0) -> Forall (ok inv) (snd w).
Proof.
  intros A w0 w H H0. eapply (reach_ok A inv) in H; eauto.
  - apply inv_lstep.
  - apply inv_shape.
  - intros. apply inv_fresh.
Qed.

Lemma list_sum_app' : forall a b, list_sum (a ++ b) = list_sum a + list_sum b.
Proof. exact list_sum_app. Qed.

Definition csum (f : job -> nat) (l : list (child job)) := list_sum (map (fun c => f (c_job c)) l).
Lemma csum_app : forall f a b, csum f (a ++ b) = csum f a + csum f b.
Proof. intros. unfold csum. rewrite map_app, list_sum_app. auto. Qed.
Lemma csum_cons : forall f c l, csum f (c :: l) = f (c_job c) + csum f l.
Proof. auto. Qed.

Lemma held_make : forall m, held (JMake m) = (m_tokens m - 1) + csum held (m_chain m).
Proof. auto. Qed.

Lemma newborn_held : forall js j, newborn js j -> held j = 0.
Proof. inversion 1; auto. Qed.

Lemma ended_held : forall A m j o, ended A m j o -> held j = 0.
Proof.
  intros A m j o H. destruct j; auto. inversion H; subst; try congruence;
  exfalso; match goal with h : forall _, _ <> _ |- _ => eapply h; reflexivity end.
Qed.

Lemma held_start : forall A high s id p m b p' m', starting A (m_js m) s ->
  m_js m = true -> start_waiting_job high s id p m = (b, (p', m')) -> m_tokens m <> 0 ->
  p' + (m_tokens m' - 1) + csum held (m_chain m') = p + (m_tokens m - 1) + csum held (m_chain m).
Proof.
  intros A high s id p m b p' m' Hs Hjs H Ht. unfold start_waiting_job in H.
  destruct ((0 <? m_used m) && high); [inversion H; subst; auto|].
  inversion Hs as [j Hj| |]; subst.
  - inversion H; subst; simpl. rewrite csum_cons. simpl.
    rewrite (newborn_held _ _ Hj). lia.
  - inversion H; subst; simpl. rewrite csum_cons. simpl. lia.
  - unfold free_child in H. destruct (m_tokens m) as [|t] eqn:Et; [congruence|].
    rewrite Hjs in H. inversion H; subst; simpl. destruct t; simpl; lia.
Qed.

Lemma held_launch : forall A high s p m p' m', starting A (m_js m) s ->
  m_js m = true -> launch high s p m = (p', m') ->
  p' + (m_tokens m' - 1) + csum held (m_chain m') = p + m_tokens m + csum held (m_chain m).
Proof.
  intros A high s p m p' m' Hs Hjs H. unfold launch in H.
  destruct (start_waiting_job high s (m_next m) p (bump (set_tokens (S (m_tokens m)) m)))
    as [b [p1 m1]] eqn:E.
  apply (held_start A) in E; simpl in *; auto. simpl in E.
  destruct (m_pc m1); inversion H; subst; simpl; lia.
Qed.

Lemma held_process : forall A o l1 c l2 p m p' m',
  m_js m = true -> m_tokens m <> 0 ->
  m_chain m = l1 ++ c :: l2 -> ended A m (c_job c) o ->
  process_child o l1 c l2 p m = (p', m') ->
  p' + (m_tokens m' - 1) + csum held (m_chain m') = p + (m_tokens m - 1) + csum held (m_chain m).
Proof.
  intros A o l1 c l2 p m p' m' Hjs Ht Hc He H.
  pose proof (ended_held _ _ _ _ He) as Hh. rewrite Hc, csum_app, csum_cons, Hh.
  destruct o as [|f|j]; simpl in H.
  - unfold free_child in H. simpl in H. rewrite Hjs in H.
    destruct (m_tokens m) as [|t]; [congruence|].
    simpl in H. destruct (m_pc m) eqn:Ep; inversion H; subst; simpl;
      rewrite ?Hc, ?csum_app, ?csum_cons, ?Hh; simpl; destruct t; simpl; lia.
  - unfold free_child in H. simpl in H. rewrite Hjs in H.
    destruct (m_tokens m) as [|t]; [congruence|].
    simpl in H. destruct (m_pc m); destruct (negb (f =? 0) && negb (m_kflag m));
      inversion H; subst; simpl; rewrite csum_app; destruct t; simpl; lia.
  - inversion H; subst; simpl. rewrite csum_app, csum_cons. simpl.
    assert (held j = 0) as ->; [|lia].
    inversion He; subst; auto. eapply newborn_held; eauto.
Qed.

Lemma held_lstep : forall A p m p' m', lstep A p m p' m' -> jinv m ->
  p' + held (JMake m') = p + held (JMake m).
Proof.
  intros A p m p' m' H [HI [Hjs Hsl]]. rewrite !held_make.
  inversion H; subst; simpl; auto; try congruence.
  - (* sw *)
    pose proof (i_tok _ HI) as Ht. rewrite H1 in Ht. simpl in Ht.
    eapply (held_start A) in H4; simpl; eauto; [|lia]. simpl in H4.
    destruct (m_pc m'0); simpl; try lia; destruct b; simpl; lia.
  - (* reap *)
    pose proof (i_tok _ HI) as Ht. rewrite H2 in Ht.
    assert (m_tokens m <> 0).
    { counts. assert (isfreed c = false) as Hc.
      { unfold isfreed. pose proof (H1 c ltac:(rewrite H2; apply in_or_app; simpl; auto)).
        destruct (c_job c); congruence. }
      rewrite Hc in Ht. lia. }
    eapply (held_process A) in H4; eauto. lia.
  - (* free *)
    eapply (held_launch A) in H4; eauto. lia.
  - (* token *)
    eapply (held_launch A) in H3; eauto.
    pose proof (i_pc _ HI) as Hx. rewrite H0 in Hx. lia.
Qed.

Lemma total_map : forall f l, total f (map c_job l) = csum f l.
Proof. intros. unfold total, csum. rewrite map_map. auto. Qed.
Lemma total_app : forall f a b, total f (a ++ b) = total f a + total f b.
Proof. intros. unfold total. rewrite map_app, list_sum_app. auto. Qed.
Lemma total_cons : forall f j l, total f (j :: l) = f j + total f l.
Proof. auto. Qed.

(** Tokens are never created, and only lost by a make that exits holding some
    with a status other than 2. *)
Lemma held_jstep : forall A p j p' j' o, jstep A p j p' j' o -> ok jinv j ->
  p' + held j' + total held o <= p + held j /\
  (allow_loss A = false -> p' + held j' + total held o = p + held j).
Proof.
  intros A p j p' j' o H. induction H; intros Hok.
  - inversion Hok as [| | | | ? HP HF]; subst. pose proof (held_lstep _ _ _ _ _ H HP).
    unfold total. cbn [map list_sum fold_right]. lia.
  - inversion Hok as [| | | | ? HP HF]; subst.
    rewrite total_map, held_make. cbn [held]. unfold clean_jobserver.
    destruct HP as [HI [Hjs Hsl]]. rewrite Hjs. cbn [andb].
    destruct (Nat.ltb_spec 0 (m_tokens m)); cbn [andb].
    + destruct (Nat.eqb_spec s 2); cbn [andb]; [lia|].
      split; [lia|]. intros Ha. rewrite H1 in Ha by lia. discriminate Ha.
    + lia.
  - inversion Hok as [| | | | ? HP HF]; subst.
    rewrite total_map, held_make. cbn [held]. split; [lia|].
    intros Ha. destruct (Nat.eq_dec (m_tokens m) 0); [lia|].
    rewrite H0 in Ha by lia. discriminate Ha.
  - inversion Hok as [| | | | ? HP HF]; subst. rewrite H in HF.
    apply Forall_app in HF. destruct HF as [F1 F2].
    inversion F2 as [|? ? F3 F4]; subst. destruct (IHjstep F3) as [G1 G2].
    rewrite !held_make. cbn [m_tokens set_chain m_chain]. rewrite H, !csum_app, !csum_cons.
    cbn [c_job]. split; [lia|]. intros Ha. specialize (G2 Ha). lia.
Qed.

Lemma held_reach : forall A n k np dbg w, reach A (start_jobserver n k np dbg) w ->
  fst w + total held (snd w) <= n - 1 /\
  (allow_loss A = false -> fst w + total held (snd w) = n - 1).
Proof.
  intros A n k np dbg w H. induction H.
  - simpl. unfold total. simpl. lia.
  - pose proof (jinv_reach _ _ _ _ _ _ H) as Hok. destruct IHreach as [G1 G2].
    inversion H0; subst; cbn [fst snd] in *.
    + apply Forall_app in Hok. destruct Hok as [F1 F2].
      inversion F2 as [|? ? F3 F4]; subst.
      destruct (held_jstep _ _ _ _ _ _ H1 F3) as [K1 K2].
      rewrite !total_app, !total_cons, ?total_app in *. split; [lia|].
      intros Ha. specialize (K2 Ha). specialize (G2 Ha). lia.
    + rewrite !total_app, !total_cons in *. simpl in *. split; [lia|].
      intros Ha. specialize (G2 Ha). lia.
Qed.

(** * The limit *)

Definition allslot (l : list (child job)) : Prop :=
  forall c, In c l -> c_slot c = true /\ c_job c <> JBad /\ c_job c <> JFreed.

Lemma allslot_count : forall l, allslot l -> nslot l = length l /\ nlive l = length l.
Proof.
  induction l as [|c l IH]; intros H; [auto|].
  destruct (H c (or_introl eq_refl)) as (H1 & H2 & H3).
  destruct (IH (fun d hd => H d (or_intror hd))) as [I1 I2].
  assert (isfreed c = false) by (unfold isfreed; destruct (c_job c); congruence).
  rewrite nslot_cons, nlive_cons, H0, H1, I1, I2. auto.
Qed.

Definition linv (m : make) : Prop :=
  inv m /\ allslot (m_chain m) /\ (forall s, m_pc m <> PGone s) /\ m_pc m <> PCrash.

Lemma newborn_slot : forall js j, newborn js j -> j <> JBad /\ j <> JFreed.
Proof. inversion 1; split; congruence. Qed.

Lemma allslot_start : forall A high s id p m b p' m', allow_fail A = false ->
  starting A (m_js m) s -> allslot (m_chain m) ->
  start_waiting_job high s id p m = (b, (p', m')) -> allslot (m_chain m').
Proof.
  intros A high s id p m b p' m' Ha Hs Hc H. unfold start_waiting_job in H.
  destruct ((0 <? m_used m) && high); [inversion H; subst; auto|].
  inversion Hs as [j Hj| |]; subst; try congruence.
  - inversion H; subst; simpl. intros c [<-|Hin]; auto. simpl. split; auto.
    eapply newborn_slot; eauto.
  - destruct (free_child p m) as [p1 m1] eqn:E. inversion H; subst.
    apply fields_free in E. destruct E as (_ & _ & _ & ->). auto.
Qed.

Lemma pc_start : forall high s id p m b p' m',
  start_waiting_job high s id p m = (b, (p', m')) ->
  m_pc m' = m_pc m \/ m_pc m' = PInternal.
Proof.
  intros high s id p m b p' m' H. unfold start_waiting_job in H.
  destruct ((0 <? m_used m) && high); [inversion H; subst; auto|].
  destruct s; try (inversion H; subst; auto; fail).
  unfold free_child in H. destruct (m_tokens m); inversion H; subst; auto.
Qed.

Lemma pc_launch : forall high s p m p' m', launch high s p m = (p', m') ->
  m_pc m' = PInternal \/ m_pc m' = if (m_slots m =? 1) || m_np m then PLinear (m_next m) else PIdle.
Proof.
  intros high s p m p' m' H. unfold launch in H.
  destruct (start_waiting_job high s (m_next m) p (bump (set_tokens (S (m_tokens m)) m)))
    as [b [p1 m1]] eqn:E.
  destruct (m_pc m1) eqn:Ep; inversion H; subst; auto.
Qed.

Lemma allslot_launch : forall A high s p m p' m', allow_fail A = false ->
  starting A (m_js m) s -> allslot (m_chain m) ->
  launch high s p m = (p', m') -> allslot (m_chain m').
Proof.
  intros A high s p m p' m' Ha Hs Hc H. unfold launch in H.
  destruct (start_waiting_job high s (m_next m) p (bump (set_tokens (S (m_tokens m)) m)))
    as [b [p1 m1]] eqn:E.
  eapply (allslot_start A) in E; simpl; eauto.
  destruct (m_pc m1); inversion H; subst; auto.
Qed.

Lemma linv_lstep : forall A, allow_fail A = false -> allow_quit A = false ->
  forall p m p' m', lstep A p m p' m' -> linv m -> linv m'.
Proof.
  intros A Hf Hq p m p' m' H (HI & HS & HG & HC).
  split; [eapply inv_lstep; eauto|].
  assert (HL : forall high s q, starting A (m_js m) s -> launch high s q m = (p', m') ->
             allslot (m_chain m') /\ (forall s, m_pc m' <> PGone s) /\ m_pc m' <> PCrash).
  { intros high s q Hs Hl. split; [eapply allslot_launch; eauto|].
    apply pc_launch in Hl. destruct Hl as [->| ->]; [split; congruence|].
    destruct ((m_slots m =? 1) || m_np m); split; congruence. }
  inversion H; subst; simpl; try (split; [assumption|split; congruence]);
    try (eapply HL; eauto; fail).
  - split; auto. destruct r; simpl; split; congruence.
  - (* sw *)
    pose proof (pc_start _ _ _ _ _ _ _ _ H4) as Hpc. simpl in Hpc.
    pose proof (allslot_start A _ _ _ _ (set_wait w m) _ _ _ Hf H3 HS H4) as HS'.
    destruct Hpc as [E|E]; rewrite E; rewrite ?H0.
    + destruct b; (split; [assumption|]).
      * rewrite E, H0. split; congruence.
      * destruct r; simpl; split; congruence.
    + split; auto. rewrite E. split; congruence.
  - (* reap *)
    rewrite H2 in HS.
    assert (HS' : allslot (l1 ++ l2)).
    { intros d Hd. apply HS. apply in_app_or in Hd. apply in_or_app. simpl. tauto. }
    destruct o as [|f|j]; simpl in H4.
    + inversion H3; subst. congruence.
    + unfold free_child in H4. simpl in H4. destruct (m_tokens m).
      * inversion H4; subst; simpl. split; auto. split; congruence.
      * simpl in H4. destruct (m_pc m) eqn:Ep;
          destruct (negb (f =? 0) && negb (m_kflag m));
          inversion H4; subst; simpl; (split; [assumption|]); rewrite ?Ep; auto; split; congruence.
    + inversion H4; subst; simpl. split; [|auto].
      destruct (HS c ltac:(apply in_or_app; simpl; auto)) as (G1 & G2 & G3).
      intros d Hd. apply in_app_or in Hd. destruct Hd as [Hd|[<-|Hd]].
      * apply HS. apply in_or_app. auto.
      * simpl. split; auto. inversion H3; subst; [eapply newborn_slot; eauto|congruence].
      * apply HS. apply in_or_app. simpl. auto.
  - (* crash *)
    exfalso. destruct (HS _ H1) as (_ & _ & G). auto.
Qed.

Lemma linv_shape : forall m l', linv m -> shape m (m_chain m) l' -> linv (set_chain l' m).
Proof.
  intros m l' (HI & HS & HG & HC) Hsh. split; [apply inv_shape; auto|]. split; [|auto].
  destruct Hsh as (l1 & c & l2 & j' & E & -> & H1 & H2 & H3). simpl. rewrite E in HS.
  destruct (HS c ltac:(apply in_or_app; simpl; auto)) as (G1 & G2 & G3).
  intros d Hd. apply in_app_or in Hd. destruct Hd as [Hd|[<-|Hd]].
  - apply HS. apply in_or_app. auto.
  - simpl. auto.
  - apply HS. apply in_or_app. simpl. auto.
Qed.

Lemma linv_reach : forall A w0 w, allow_fail A = false -> allow_quit A = false ->
  reach A w0 w -> Forall (ok linv) (snd w0) -> Forall (ok linv) (snd w).
Proof.
  intros A w0 w Hf Hq H H0. eapply (reach_ok A linv) in H; eauto.
  - apply linv_lstep; auto.
  - apply linv_shape.
  - intros. split; [apply inv_fresh|]. split; [intros c []|simpl; split; congruence].
Qed.

(** A make that exits leaves no job behind. *)
Lemma linv_no_orphan : forall A p j p' j' o, jstep A p j p' j' o -> ok linv j -> o = [].
Proof.
  intros A p j p' j' o H. induction H; intros Hok; auto;
    inversion Hok as [| | | | ? HP HF]; subst.
  - destruct HP as (HI & HS & _). destruct (allslot_count _ HS) as [C1 C2].
    pose proof (i_exact _ HI) as He. rewrite (nfreed_0 (m_chain m)) in He
      by (intros c Hc; destruct (HS c Hc) as (? & ? & ?); auto).
    specialize (He eq_refl). destruct (m_chain m); auto. simpl in C1. lia.
  - destruct HP as (_ & _ & HG & _). exfalso. eapply HG; eauto.
  - rewrite H in HF. apply Forall_app in HF. destruct HF as [_ F2]. inversion F2; subst. auto.
Qed.

Lemma linv_single : forall A p0 m0 w, allow_fail A = false -> allow_quit A = false ->
  ok linv (JMake m0) -> reach A (p0, [JMake m0]) w ->
  exists p j, w = (p, [j]) /\ ((exists m, j = JMake m) \/ exists s, j = JExited s).
Proof.
  intros A p0 m0 w Hf Hq H0 H. induction H; eauto 6.
  pose proof (linv_reach _ _ _ Hf Hq H ltac:(simpl; auto)) as Hok.
  destruct IHreach as (p & j & -> & Hj).
  inversion H1 as [q q' l1 x l2 x' o Hstep E0 E1|q l1 l2 E0 E1]; subst;
    match goal with h : _ ++ _ :: _ = [_] |- _ => rename h into Es end.
  - destruct l1 as [|y l1]; [|destruct l1; discriminate].
    inversion Es; subst. simpl in Hok.
    inversion Hok as [|? ? Hok' _]; subst.
    pose proof (linv_no_orphan _ _ _ _ _ _ Hstep Hok'). subst o.
    exists q', x'. split; auto. eapply jstep_kind; eauto.
  - destruct l1 as [|y l1]; [|destruct l1; discriminate].
    inversion Es; subst. destruct Hj as [[? ?]|[? ?]]; discriminate.
Qed.

Lemma csum_le : forall l, Forall (fun c : child job => running (c_job c) <= held (c_job c) + 1) l ->
  csum running l <= csum held l + length l.
Proof. induction 1; simpl; auto. rewrite !csum_cons. lia. Qed.

Lemma running_held : forall j, ok linv j -> running j <= held j + 1.
Proof.
  intros j. induction j as [| | | |m IH] using job_ind'; intros Hok; simpl; try lia.
  inversion Hok as [| | | | ? HP HF]; subst.
  assert (G : csum running (m_chain m) <= csum held (m_chain m) + length (m_chain m)).
  { apply csum_le. rewrite Forall_forall in *. intros c Hc. apply IH; auto. }
  destruct HP as (HI & HS & _). destruct (allslot_count _ HS) as [_ C2].
  pose proof (i_tok _ HI) as Ht. unfold csum in G.
  destruct (m_chain m) eqn:E; simpl in *; lia.
Qed.

Lemma jobserver_start_linv : forall s js k np dbg, ok linv (JMake (fresh s js k np dbg)).
Proof.
  intros. apply ok_make; simpl; auto.
  split; [apply inv_fresh|]. split; [intros c []|simpl; split; congruence].
Qed.

(** * Job slots without a jobserver *)

Definition no_token_loop (q : pc) : Prop :=
  match q with PTop | PLoop | PCheck | PAsleep | PSW RLoop => False | _ => True end.

Definition sinv (m : make) : Prop :=
  linv m /\ (m_js m = false -> m_slots m <> 0 ->
              m_wait m = [] /\ m_used m <= m_slots m /\
              (forall c, In c (m_chain m) -> forall m', c_job c <> JMake m') /\
              no_token_loop (m_pc m)).

Lemma sinv_launch : forall A high s p m p' m', allow_fail A = false -> allow_load A = false ->
  load_ok A high -> starting A (m_js m) s -> m_js m = false ->
  launch high s p m = (p', m') ->
  m_wait m = [] -> m_used m < m_slots m ->
  (forall c, In c (m_chain m) -> forall m', c_job c <> JMake m') ->
  m_wait m' = [] /\ m_used m' <= m_slots m /\
  (forall c, In c (m_chain m') -> forall m', c_job c <> JMake m') /\ no_token_loop (m_pc m').
Proof.
  intros A high s p m p' m' Hf Hl Hh Hs Hjs H Hw Hu Hc.
  assert (Hpc : no_token_loop (m_pc m')).
  { apply pc_launch in H. destruct H as [->| ->]; simpl; auto.
    destruct ((m_slots m =? 1) || m_np m); simpl; auto. }
  unfold launch in H.
  assert (high = false) as ->.
  { destruct high; auto. unfold load_ok in Hh. rewrite Hh in Hl by auto. discriminate Hl. }
  unfold start_waiting_job in H. rewrite andb_false_r in H.
  inversion Hs as [j Hj| |]; subst; try congruence.
  - simpl in H. destruct (m_pc m); inversion H; subst; simpl;
      (split; [auto|split; [lia|split; [|auto]]]);
      intros d [<-|Hin] x; auto; simpl; inversion Hj; congruence.
  - simpl in H. destruct (m_pc m); inversion H; subst; simpl;
      (split; [auto|split; [lia|split; auto]]).
Qed.

Lemma sinv_lstep : forall A, allow_fail A = false -> allow_quit A = false -> allow_load A = false ->
  forall p m p' m', lstep A p m p' m' -> sinv m -> sinv m'.
Proof.
  intros A Hf Hq Hl p m p' m' H [HL HS].
  split; [eapply linv_lstep; eauto|]. intros Hjs Hsl.
  pose proof (fields_lstep _ _ _ _ _ H) as (F1 & F2 & _). rewrite F1 in Hjs.
  rewrite F2 in *.
  specialize (HS Hjs Hsl). destruct HS as (Hw & Hu & Hc & Hp).
  inversion H; subst; simpl in *; auto 6; try congruence;
    try (exfalso; match goal with h : m_pc m = _ |- _ => rewrite h in Hp; exact Hp end).
  - (* sw_none *)
    repeat (split; auto). match goal with h : m_pc m = _ |- _ => rewrite h in Hp end.
    destruct r; simpl in *; auto.
  - (* reap *)
    assert (Hc' : forall d, In d (l1 ++ l2) -> forall x, c_job d <> JMake x).
    { intros d Hd. apply Hc. rewrite H2. apply in_app_or in Hd. apply in_or_app. simpl. tauto. }
    destruct o as [|f|j]; simpl in H4.
    + inversion H3; subst. congruence.
    + unfold free_child in H4. simpl in H4. destruct (m_tokens m).
      * inversion H4; subst; simpl. split; auto. split; auto. destruct (c_slot c); lia.
      * simpl in H4. destruct (m_pc m) eqn:Ep;
          destruct (negb (f =? 0) && negb (m_kflag m));
          inversion H4; subst; simpl; rewrite ?Ep; simpl;
          (split; [auto|split; [destruct (c_slot c); lia|auto]]).
    + inversion H4; subst; simpl. split; auto. split; auto. split; auto.
      intros d Hd x. apply in_app_or in Hd. destruct Hd as [Hd|[<-|Hd]].
      * apply Hc'. apply in_or_app. auto.
      * simpl. inversion H3; subst; [|congruence].
        match goal with h : newborn _ _ |- _ => inversion h; congruence end.
      * apply Hc'. apply in_or_app. auto.
  - (* slot *)
    eapply sinv_launch in H5; eauto. lia.
  - (* free *)
    exfalso. match goal with h : m_pc m = _ \/ _ |- _ => destruct h as [h|h]; rewrite h in Hp; exact Hp end.
Qed.

Lemma sinv_shape : forall m l', sinv m -> shape m (m_chain m) l' -> sinv (set_chain l' m).
Proof.
  intros m l' [HL HS] Hsh. split; [apply linv_shape; auto|]. simpl. intros Hjs Hsl.
  destruct (HS Hjs Hsl) as (Hw & Hu & Hc & Hp).
  destruct Hsh as (l1 & c & l2 & j' & E & -> & [m' H1] & _). exfalso.
  apply (Hc c) with m'; auto. rewrite E. apply in_or_app. simpl. auto.
Qed.

Lemma sinv_reach : forall A n k np dbg w,
  allow_fail A = false -> allow_quit A = false -> allow_load A = false -> n <> 0 ->
  reach A (start_slots n k np dbg) w -> Forall (ok sinv) (snd w).
Proof.
  intros A n k np dbg w Hf Hq Hl Hn H. eapply (reach_ok A sinv) in H; eauto.
  - apply sinv_lstep; auto.
  - apply sinv_shape.
  - intros. split; [|simpl; congruence].
    split; [apply inv_fresh|]. split; [intros c []|simpl; split; congruence].
  - simpl. constructor; auto. apply ok_make; simpl; auto.
    split.
    + split; [apply inv_fresh|]. split; [intros c []|simpl; split; congruence].
    + intros _ _. simpl. repeat split; auto with arith.
Qed.

(** The settings of the first make never change. *)
Lemma slots_root : forall A n k np dbg w,
  allow_fail A = false -> allow_quit A = false ->
  reach A (start_slots n k np dbg) w ->
  exists p j, w = (p, [j]) /\
    ((exists m, j = JMake m /\ m_js m = false /\ m_slots m = n) \/ exists s, j = JExited s).
Proof.
  intros A n k np dbg w Hf Hq H. induction H.
  - exists 0, (JMake (fresh n false k np dbg)). split; auto. left. eexists. split; eauto.
  - pose proof (linv_reach _ _ _ Hf Hq H ltac:(simpl; auto using jobserver_start_linv)) as Hok.
    destruct IHreach as (p & j & -> & Hj).
    inversion H0 as [q q' l1 x l2 x' o Hstep E0 E1|q l1 l2 E0 E1]; subst;
    match goal with h : _ ++ _ :: _ = [_] |- _ => rename h into Es end.
    + destruct l1 as [|y l1]; [|destruct l1; discriminate].
      inversion Es; subst. simpl in Hok.
      inversion Hok as [|? ? Hok' _]; subst.
      pose proof (linv_no_orphan _ _ _ _ _ _ Hstep Hok'). subst o.
      exists q', x'. split; auto. inversion Hstep; subst; eauto.
      * destruct Hj as [(m1 & E & Hj1 & Hj2)|[? E]]; inversion E; subst.
        pose proof (fields_lstep _ _ _ _ _ H1) as (F1 & F2 & _).
        left. eexists. split; [reflexivity|]. split; congruence.
      * destruct Hj as [(m1 & E & Hj1 & Hj2)|[? E]]; inversion E; subst.
        left. eexists. split; eauto.
    + destruct l1 as [|y l1]; [|destruct l1; discriminate].
      inversion Es; subst. destruct Hj as [[? [? ?]]|[? ?]]; discriminate.
Qed.

(** * One job at a time *)

Definition quiet (m : make) : Prop :=
  m_wait m = [] /\
  match m_pc m with
  | PLinear id => length (m_chain m) <= 1 /\ forall c, In c (m_chain m) -> c_id c = id
  | PDie _ | PGone _ | PCrash | PInternal => length (m_chain m) <= 1
  | _ => m_chain m = []
  end.

Definition oinv (m : make) : Prop :=
  inv m /\ (m_slots m = 1 \/ m_np m = true -> quiet m) /\
  (forall id, m_pc m = PLinear id -> m_slots m = 1 \/ m_np m = true).

Lemma quiet_launch : forall A high s p m p' m', starting A (m_js m) s ->
  launch high s p m = (p', m') -> inv m -> m_wait m = [] -> m_chain m = [] ->
  m_slots m = 1 \/ m_np m = true -> quiet m'.
Proof.
  intros A high s p m p' m' Hs H HI Hw Hc Ho.
  pose proof (i_used _ HI) as Hu. rewrite Hc in Hu. unfold nslot in Hu. simpl in Hu.
  assert (Hl : (m_slots m =? 1) || m_np m = true).
  { destruct Ho as [->| ->]; auto. apply orb_true_r. }
  unfold launch in H. rewrite Hl in H. unfold start_waiting_job in H. simpl in H.
  assert (m_used m = 0) as E by lia. rewrite E in H. simpl in H.
  pose proof (i_pc _ HI) as Hp.
  destruct s as [j| |]; simpl in H; unfold quiet;
    destruct (m_pc m); try tauto; inversion H; subst; simpl; rewrite ?Hc; simpl;
    (split; [auto|split; [lia|]]); intros d Hd; simpl in Hd; try contradiction; destruct Hd as [<-|[]]; auto.
Qed.

Lemma linear_lstep : forall A p m p' m', lstep A p m p' m' -> inv m ->
  (forall id, m_pc m = PLinear id -> m_slots m = 1 \/ m_np m = true) ->
  forall id, m_pc m' = PLinear id -> m_slots m' = 1 \/ m_np m' = true.
Proof.
  intros A p m p' m' H HI HN id.
  pose proof (fields_lstep _ _ _ _ _ H) as (_ & F2 & F3). rewrite F2, F3.
  assert (HL : forall high s q q', launch high s q m = (q', m') ->
            m_pc m' = PLinear id -> m_slots m = 1 \/ m_np m = true).
  { intros high s q q' Hl Hp. apply pc_launch in Hl. rewrite Hp in Hl.
    destruct Hl as [Hl|Hl]; [discriminate|].
    destruct ((m_slots m =? 1) || m_np m) eqn:E; [|discriminate].
    apply orb_prop in E. destruct E as [E|E]; auto. apply Nat.eqb_eq in E. auto. }
  inversion H; subst; simpl; try congruence; eauto.
  - destruct r; simpl; congruence.
  - pose proof (pc_start _ _ _ _ _ _ _ _ H4) as Hp. simpl in Hp.
    destruct Hp as [E|E]; rewrite E; rewrite ?H0; destruct b; simpl; try congruence.
    destruct r; simpl; congruence.
  - intros Hid. destruct o as [|f|j]; simpl in H4.
    + unfold free_child in H4. simpl in H4. destruct (m_tokens m).
      * inversion H4; subst; simpl in *. congruence.
      * simpl in H4. destruct (m_pc m) eqn:Ep; inversion H4; subst; simpl in *;
          rewrite ?Ep in *; congruence.
    + unfold free_child in H4. simpl in H4. destruct (m_tokens m).
      * inversion H4; subst; simpl in *. congruence.
      * simpl in H4. destruct (m_pc m) eqn:Ep; destruct (negb (f =? 0) && negb (m_kflag m));
          inversion H4; subst; simpl in *; rewrite ?Ep in *; try congruence; eauto.
    + inversion H4; subst; simpl in *. eauto.
Qed.

Lemma oinv_lstep : forall A p m p' m', lstep A p m p' m' -> oinv m -> oinv m'.
Proof.
  intros A p m p' m' H (HI & HO & HN). split; [eapply inv_lstep; eauto|].
  split; [|eapply linear_lstep; eauto]. intros Ho.
  pose proof (fields_lstep _ _ _ _ _ H) as (_ & F2 & F3). rewrite F2, F3 in Ho.
  specialize (HO Ho). destruct HO as [Hw Hpc].
  inversion H; subst;
    try (match goal with h : m_pc m = _ |- _ => rewrite h in Hpc end;
         first [ eapply quiet_launch; eauto; fail
               | unfold quiet; simpl; rewrite ?Hpc; auto; fail ]).
  - unfold quiet. simpl. split; auto. rewrite H0 in Hpc. destruct r; auto.
  - rewrite H1 in Hw. discriminate Hw.
  - (* reap *)
    assert (Hlen : length (m_chain m) <= 1 /\ l1 = [] /\ l2 = []).
    { assert (L : length (m_chain m) <= 1).
      { destruct (m_pc m); try (rewrite Hpc; simpl; lia); tauto. }
      split; auto. rewrite H2 in L. rewrite app_length in L. simpl in L.
      destruct l1, l2; simpl in L; auto; lia. }
    destruct Hlen as (_ & -> & ->). simpl in H2.
    destruct o as [|f|j]; simpl in H4.
    + unfold free_child in H4. simpl in H4. destruct (m_tokens m).
      * inversion H4; subst; unfold quiet; simpl. rewrite H2. simpl. auto.
      * simpl in H4. unfold quiet.
        unfold reaping in H0.
        destruct (m_pc m) eqn:Ep; try discriminate H0;
          inversion H4; subst; simpl; rewrite ?H2; simpl; auto.
    + unfold free_child in H4. simpl in H4. destruct (m_tokens m).
      * inversion H4; subst; unfold quiet; simpl. auto.
      * simpl in H4. unfold quiet.
        destruct (m_pc m) eqn:Ep;
          destruct (negb (f =? 0) && negb (m_kflag m));
          inversion H4; subst; simpl; rewrite ?Ep; simpl; auto; split; auto; split; auto; tauto.
    + inversion H4; subst. unfold quiet. simpl. split; auto.
      unfold reaping in H0. destruct (m_pc m) eqn:Ep; try discriminate H0; simpl; auto;
        rewrite ?H2 in Hpc; try discriminate Hpc.
      split; auto. intros d [<-|[]]. simpl. apply Hpc. simpl. auto.
  - unfold quiet. simpl. split; auto.
    destruct (m_pc m); try (rewrite Hpc; simpl; lia); tauto.
  - eapply quiet_launch; eauto. destruct H0 as [E|E]; rewrite E in Hpc; auto.
  - unfold quiet. simpl. split; auto. rewrite H0 in Hpc. destruct Hpc as [_ Hpc].
    destruct (m_chain m) as [|c l]; auto. exfalso.
    apply (H1 c (or_introl eq_refl)). apply Hpc. simpl. auto.
  - unfold quiet. simpl. split; auto.
    destruct (m_pc m); try (rewrite Hpc; simpl; lia); tauto.
Qed.

Lemma oinv_shape : forall m l', oinv m -> shape m (m_chain m) l' -> oinv (set_chain l' m).
Proof.
  intros m l' (HI & HO & HN) Hsh. split; [apply inv_shape; auto|].
  split; [|auto]. simpl. intros Ho.
  specialize (HO Ho). destruct Hsh as (l1 & c & l2 & j' & E & -> & _).
  unfold quiet in *. simpl. rewrite E in HO. destruct HO as [Hw Hp]. split; auto.
  rewrite app_length in *. simpl in *.
  destruct (m_pc m); auto; try (destruct l1; discriminate Hp).
  destruct Hp as [Hp1 Hp2]. split; auto.
  intros d Hd. apply in_app_or in Hd. destruct Hd as [Hd|[<-|Hd]].
  - apply Hp2. apply in_or_app. auto.
  - simpl. apply Hp2. apply in_or_app. simpl. auto.
  - apply Hp2. apply in_or_app. simpl. auto.
Qed.

Lemma oinv_fresh : forall s js k np dbg, oinv (fresh s js k np dbg).
Proof. intros. split; [apply inv_fresh|]. split; [|simpl; congruence].
  intros _. split; auto. simpl. auto.
Qed.

Lemma oinv_reach : forall A w0 w, reach A w0 w ->
  Forall (ok oinv) (snd w0) -> Forall (ok oinv) (snd w).
Proof.
  intros A w0 w H H0. eapply (reach_ok A oinv) in H; eauto.
  - apply oinv_lstep.
  - apply oinv_shape.
  - intros. apply oinv_fresh.
Qed.

(** * Somebody can always act *)

Definition can_go (A : allowed) (p : nat) (m : make) : Prop :=
  (m_pc m <> PAsleep /\ exists p' m', lstep A p m p' m') \/
  (exists s, m_pc m = PDie s /\ m_used m = 0).

Lemma acting : forall A p j, ok linv j -> ok oinv j -> ok jinv j -> (exists m, j = JMake m) ->
  (exists m, is_in m j /\ can_go A p m) \/
  (exists m c, is_in m j /\ In c (m_chain m) /\
     (c_job c = JLeaf \/ exists s, c_job c = JExited s)).
Proof.
  intros A p j. induction j as [| | | |m IH] using job_ind'; intros HL HO HJ Hm;
    try (destruct Hm; discriminate).
  inversion HL as [| | | | ? (HI & HS & HG & HC) HLc]; subst.
  inversion HO as [| | | | ? (_ & Hq & Hn) HOc]; subst.
  inversion HJ as [| | | | ? (_ & Hjs & Hsl) HJc]; subst.
  assert (Hdown : m_chain m <> [] ->
    (exists m0, is_in m0 (JMake m) /\ can_go A p m0) \/
    (exists m0 c, is_in m0 (JMake m) /\ In c (m_chain m0) /\
       (c_job c = JLeaf \/ exists s, c_job c = JExited s))).
  { intros Hne. destruct (m_chain m) as [|c l] eqn:E; [congruence|].
    assert (Hin : In c (m_chain m)) by (rewrite E; simpl; auto).
    destruct (HS c ltac:(simpl; auto)) as (_ & Hb & Hf).
    inversion IH as [|? ? IHc _]; subst. inversion HLc; subst.
    inversion HOc; subst. inversion HJc; subst.
    destruct (c_job c) as [| | |s|m1] eqn:Ej; try congruence.
    - right. exists m, c. split; [constructor|]. auto.
    - right. exists m, c. split; [constructor|]. eauto.
    - destruct IHc as [(m2 & K1 & K2)|(m2 & c2 & K1 & K2 & K3)]; auto; try (eexists; eauto).
      + left. exists m2. split; auto. eapply in_below; eauto. rewrite Ej. auto.
      + right. exists m2, c2. split; auto. eapply in_below; eauto. rewrite Ej. auto. }
  assert (Hgo : m_pc m <> PAsleep -> (exists p' m', lstep A p m p' m') ->
    exists m0, is_in m0 (JMake m) /\ can_go A p m0).
  { intros H1 H2. exists m. split; [constructor|]. left. auto. }
  assert (Hdone : starting A (m_js m) SDone) by constructor.
  assert (Hlow : load_ok A false) by (unfold load_ok; congruence).
  assert (Hfree : m_pc m = PTop \/ m_pc m = PCheck -> m_tokens m = 0 ->
     exists p' m', lstep A p m p' m').
  { intros H1 H2. destruct (launch false SDone p m) as [p1 m1] eqn:E.
    exists p1, m1. eapply ls_free; eauto. }
  destruct (m_pc m) as [|r| | | | | |id|s|s| |] eqn:Ep.
  - left. apply Hgo; [congruence|]. eexists. eexists. eapply ls_new; eauto.
  - left. apply Hgo; [congruence|].
    destruct (m_wait m) as [|id w] eqn:Ew.
    + eexists. eexists. eapply ls_sw_none; eauto.
    + destruct (start_waiting_job false SDone id p (set_wait w m)) as [b [p1 m1]] eqn:E.
      eexists. eexists. eapply ls_sw; eauto.
  - left. apply Hgo; [congruence|]. eexists. eexists. eapply ls_enter; eauto.
  - left. apply Hgo; [congruence|]. destruct (Nat.eq_dec (m_tokens m) 0).
    + apply Hfree; auto.
    + eexists. eexists. eapply ls_loop; eauto.
  - left. apply Hgo; [congruence|]. eexists. eexists. eapply ls_waiting; eauto.
  - left. apply Hgo; [congruence|]. destruct (Nat.eq_dec (m_tokens m) 0).
    + apply Hfree; auto.
    + pose proof (i_pc _ HI) as Hp. rewrite Ep in Hp.
      eexists. eexists. eapply ls_sleep; eauto.
  - apply Hdown. pose proof (i_pc _ HI) as Hp. rewrite Ep in Hp. tauto.
  - destruct (m_chain m) as [|c l] eqn:E; [|apply Hdown; congruence].
    left. apply Hgo; [congruence|]. eexists. eexists. eapply ls_linear; eauto.
    + rewrite E. simpl. tauto.
    + destruct (Hq (Hn _ eq_refl)) as [-> _]. simpl. tauto.
  - destruct (Nat.eq_dec (m_used m) 0).
    + left. exists m. split; [constructor|]. right. eauto.
    + apply Hdown. intros Hx. pose proof (i_used _ HI) as Hu. rewrite Hx in Hu.
      unfold nslot in Hu. simpl in Hu. lia.
  - exfalso. eapply HG; eauto.
  - exfalso. pose proof (i_pc _ HI) as Hp. rewrite Ep in Hp. auto.
  - congruence.
Qed.
