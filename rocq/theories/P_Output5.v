(** What may happen next. *)
From Verif Require Import Base M_Output S_Output P_Output P_Output2.
Open Scope list_scope.
Open Scope nat_scope.

Section Proofs.
  Variable cfg : config.
  Local Notation act := (act cfg).
  Local Notation step := (step cfg).
  Local Notation run := (run cfg).

  (** The child as the events say it is. *)
  Definition fits (p : phase) (M : make) (c : nat) : Prop :=
    match p with
    | Unborn => m_kids M c = None
    | Rest r => exists k, m_kids M c = Some k /\ k_done k = false /\ k_runs k = false /\ k_ready k = r /\ ~ closing M c
    | Running => exists k, m_kids M c = Some k /\ k_done k = false /\ k_runs k = true /\ k_ready k = false /\ task_kid M <> Some c
    | Gone => exists k, m_kids M c = Some k /\ k_runs k = false /\ (k_done k = true \/ closing M c)
    end.
  Definition kept (es : list (nat * event)) (m : nat) (M : make) : Prop :=
    (forall c, fits (phase_of es m c) M c) /\ (m_quit M = true <-> In (m, Quit) es).

  Lemma phase_snoc : forall es m e c, phase_of (es ++ [(m, e)]) m c = after c e (phase_of es m c).
  Proof. intros. unfold phase_of. rewrite fold_left_app. cbn. rewrite Nat.eqb_refl. reflexivity. Qed.
  Lemma phase_other : forall es m m' e c, m' <> m -> phase_of (es ++ [(m', e)]) m c = phase_of es m c.
  Proof. intros es m m' e c H. unfold phase_of. rewrite fold_left_app. cbn. apply Nat.eqb_neq in H. rewrite H. reflexivity. Qed.

  (** A child but [c] stays what it is. *)
  Lemma fits_else : forall p M M' c, m_kids M' c = m_kids M c -> (closing M' c <-> closing M c) -> (task_kid M' = Some c -> task_kid M = Some c) ->
    fits p M c -> fits p M' c.
  Proof.
    intros p M M' c K C T F. destruct p; cbn in *; rewrite K; auto.
    - destruct F as (k & A & B & D & E & G). exists k. repeat split; auto. intros X. apply G, C, X.
    - destruct F as (k & A & B & D & E & G). exists k. repeat split; auto.
    - destruct F as (k & A & B & D). exists k. repeat split; auto. destruct D as [D|D]; auto. right. apply C, D.
  Qed.

  Lemma idle_inv : forall M, idle M = true -> m_task M = None /\ m_quit M = false.
  Proof. intros M H. unfold idle in H. destruct (m_task M); try discriminate. destruct (m_quit M); try discriminate. auto. Qed.
  Lemma live_inv : forall M c k, live M c = Some k -> m_kids M c = Some k /\ k_done k = false.
  Proof. intros M c k H. unfold live in H. destruct (m_kids M c) as [k0|]; try discriminate. destruct (k_done k0) eqn:D; try discriminate. injection H as <-. auto. Qed.
  Lemma at_rest_inv : forall M c k, at_rest M c = Some k -> m_kids M c = Some k /\ k_done k = false /\ m_task M = None /\ m_quit M = false /\ k_runs k = false.
  Proof.
    intros M c k H. unfold at_rest in H. destruct (live M c) as [k0|] eqn:L; try discriminate. destruct (idle M && negb (k_runs k0)) eqn:I; try discriminate.
    injection H as <-. apply live_inv in L. apply andb_true_iff in I. destruct I as [I R]. apply idle_inv in I. apply negb_true_iff in R. tauto.
  Qed.

  Lemma phase_live : forall p M c k, fits p M c -> m_kids M c = Some k -> k_done k = false -> ~ closing M c ->
    p = if k_runs k then Running else Rest (k_ready k).
  Proof.
    intros p M c k F K D C. destruct p; cbn in F.
    - congruence.
    - destruct F as (k0 & A & B & R & E & G). replace k0 with k in * by congruence. rewrite R, E. reflexivity.
    - destruct F as (k0 & A & B & R & E & G). replace k0 with k in * by congruence. rewrite R. reflexivity.
    - destruct F as (k0 & A & B & [R|R]); [|tauto]. congruence.
  Qed.

  Lemma no_task : forall M c, m_task M = None -> ~ closing M c.
  Proof. intros M c H. unfold closing. rewrite H. auto. Qed.

  (** Child [c] changes, the task does not. *)
  Lemma kept_set : forall es m M c k tr e, kept es m M ->
    after c e (phase_of es m c) = (if k_runs k then Running else Rest (k_ready k)) -> k_done k = false -> ~ closing M c ->
    (k_runs k = true -> k_ready k = false /\ task_kid M <> Some c) ->
    (forall c' p, c' <> c -> after c' e p = p) -> e <> Quit ->
    kept (es ++ [(m, e)]) m (mkmake (upd (m_kids M) c (Some k)) tr (m_task M) (m_quit M)).
  Proof.
    intros es m M c k tr e [F Q] P D C R O NQ. split.
    - intros c'. rewrite phase_snoc. destruct (Nat.eq_dec c' c) as [->|N].
      + rewrite P. destruct (k_runs k) eqn:KR; cbn [fits m_kids]; exists k; rewrite upd_same.
        * destruct (R eq_refl) as [R1 R2]. repeat split; auto.
        * repeat split; auto.
      + rewrite O by auto. apply (fits_else (phase_of es m c') M); auto; cbn [m_kids]; [apply upd_other; auto | reflexivity].
    - cbn [m_quit]. rewrite Q, in_app_iff. split; auto. intros [H | [H | []]]; auto. congruence.
  Qed.

  Lemma kept_begin : forall es m M c k (cl : bool) e, kept es m M -> m_task M = None -> k_done k = false -> k_runs k = false ->
    after c e (phase_of es m c) = (if cl then Gone else Rest (k_ready k)) ->
    (forall c' p, c' <> c -> after c' e p = p) -> e <> Quit ->
    kept (es ++ [(m, e)]) m (begin_dump cfg M c k cl).
  Proof.
    intros es m M c k cl e [F Q] T D R P O NQ.
    assert (QQ : m_quit M = true <-> In (m, Quit) (es ++ [(m, e)])). { rewrite Q, in_app_iff. split; auto. intros [H | [H | []]]; auto. congruence. }
    unfold begin_dump. destruct (some_output (k_out k)) eqn:SO.
    - split; [|exact QQ]. intros c'. rewrite phase_snoc. destruct (Nat.eq_dec c' c) as [->|N].
      + rewrite P. unfold set_task, set_kid. destruct cl; cbn [fits m_kids]; exists k; rewrite upd_same.
        * repeat split; auto. right. cbn. auto.
        * repeat split; auto. cbn. intros [_ X]. discriminate.
      + rewrite O by auto. apply (fits_else (phase_of es m c') M); auto; unfold set_task, set_kid; cbn [m_kids].
        * apply upd_other; auto.
        * unfold closing. cbn. rewrite T. split; [intros [X _]; congruence | tauto].
        * cbn. congruence.
    - split; [|exact QQ]. intros c'. rewrite phase_snoc. destruct (Nat.eq_dec c' c) as [->|N].
      + rewrite P. unfold set_kid. destruct cl; cbn [fits m_kids]; rewrite upd_same.
        * exists (closed cfg k). repeat split; auto.
        * exists k. repeat split; auto. apply no_task. cbn. auto.
      + rewrite O by auto. apply (fits_else (phase_of es m c') M); auto; unfold set_kid; cbn [m_kids]; [apply upd_other; auto | reflexivity].
  Qed.

  Lemma act_kept : forall es m M e M' l, good cfg m M -> kept es m M -> act m M e = Some (M', l) -> kept (es ++ [(m, e)]) m M'.
  Proof.
    intros es m M e M' l G K H. assert (K0 := K). destruct K0 as [F Q].
    assert (OQ : e <> Quit -> m_quit M = true <-> In (m, Quit) (es ++ [(m, e)])).
    { intros NQ. rewrite Q, in_app_iff. split; auto. intros [X | [X | []]]; auto. congruence. }
    assert (NN : forall c' c, c' <> c -> (c =? c') = false) by (intros; apply Nat.eqb_neq; auto).
    destruct e as [c | c r | c err t | c | c err t | c | c | c | ok | | |]; cbn in H.
    - destruct (m_kids M c) as [k|] eqn:E; try discriminate. destruct (idle M) eqn:I; try discriminate. injection H as <- <-. apply idle_inv in I.
      apply kept_set; auto; cbn; try discriminate; [rewrite Nat.eqb_refl; reflexivity | apply no_task; tauto | intros; rewrite NN; auto].
    - destruct (at_rest M c) as [k|] eqn:E; try discriminate. apply at_rest_inv in E. destruct E as (E & D & T & QF & R). injection H as <- <-.
      match goal with |- context [if ?b then _ else _] => destruct b end.
      + apply kept_set; auto; cbn; try discriminate; [rewrite Nat.eqb_refl; reflexivity | apply no_task; auto | intros; rewrite NN; auto].
      + apply kept_begin; auto; cbn; try discriminate; [rewrite Nat.eqb_refl; reflexivity | intros; rewrite NN; auto].
    - destruct (at_rest M c) as [k|] eqn:E; try discriminate. destruct t as [| a t]; try discriminate. apply at_rest_inv in E. destruct E as (E & D & T & QF & R).
      destruct (output_start cfg m (k_out k) (m_traced M)) as [[o1 tr] es1]. destruct (put m c o1 err (a :: t)) as [o2 es2]. injection H as <- <-.
      unfold set_kid. cbn [m_kids m_traced m_task m_quit].
      apply kept_set; auto; cbn; try discriminate; [|apply no_task; auto].
      rewrite (phase_live _ _ _ _ (F c) E D (no_task _ _ T)), R. reflexivity.
    - destruct (at_rest M c) as [k|] eqn:E; try discriminate. destruct (k_ready k) eqn:Y; try discriminate. apply at_rest_inv in E. destruct E as (E & D & T & QF & R).
      destruct (output_start cfg m (k_out k) (m_traced M)) as [[o1 tr] es1]. injection H as <- <-.
      unfold set_kid. cbn [m_kids m_traced m_task m_quit].
      apply kept_set; auto; cbn; try discriminate; [rewrite Nat.eqb_refl; reflexivity | apply no_task; auto | | intros; rewrite NN; auto].
      intros _. split; auto. unfold task_kid. rewrite T. discriminate.
    - destruct (live M c) as [k|] eqn:E; try discriminate. destruct (k_runs k) eqn:R; try discriminate. apply live_inv in E. destruct E as [E D].
      destruct (put m c (k_out k) err t) as [o es1]. injection H as <- <-. unfold set_kid.
      pose proof (F c) as FC. destruct (phase_of es m c) as [| r | |] eqn:P; cbn in FC.
      + congruence.
      + destruct FC as (k0 & A & B & C & _). congruence.
      + destruct FC as (k0 & A & B & C & Y & TK). replace k0 with k in * by congruence.
        apply kept_set; auto; cbn; try discriminate; intros X; apply TK, closing_kid, X.
      + destruct FC as (k0 & A & B & C). congruence.
    - destruct (live M c) as [k|] eqn:E; try discriminate. destruct (k_runs k) eqn:R; try discriminate. apply live_inv in E. destruct E as [E D].
      injection H as <- <-. unfold set_kid.
      pose proof (F c) as FC. destruct (phase_of es m c) as [| r | |] eqn:P; cbn in FC.
      + congruence.
      + destruct FC as (k0 & A & B & C & _). congruence.
      + destruct FC as (k0 & A & B & C & Y & TK). replace k0 with k in * by congruence.
        apply kept_set; auto; cbn; try discriminate; [rewrite Nat.eqb_refl; congruence | intros X; apply TK, closing_kid, X | intros; rewrite NN; auto].
      + destruct FC as (k0 & A & B & C). congruence.
    - destruct (at_rest M c) as [k|] eqn:E; try discriminate. apply at_rest_inv in E. destruct E as (E & D & T & QF & R).
      assert (X : kept (es ++ [(m, Next c)]) m M).
      { split; [|apply OQ; discriminate]. intros c'. rewrite phase_snoc. cbn. apply F. }
      destruct (c_mode cfg); injection H as <- <-; auto.
      apply kept_begin; auto; cbn; try discriminate. rewrite (phase_live _ _ _ _ (F c) E D (no_task _ _ T)), R. reflexivity.
    - destruct (at_rest M c) as [k|] eqn:E; try discriminate. apply at_rest_inv in E. destruct E as (E & D & T & QF & R). injection H as <- <-.
      apply kept_begin; auto; cbn; try discriminate; [rewrite Nat.eqb_refl; reflexivity | intros; rewrite NN; auto].
    - destruct (m_task M) as [[c cl | c cl h p]|] eqn:T; try discriminate. destruct (m_kids M c) as [k|] eqn:E; try discriminate. injection H as <- <-.
      split; [|apply OQ; discriminate]. intros c'. rewrite phase_snoc. cbn [after]. apply (fits_else (phase_of es m c') M); auto; unfold closing, task_kid; cbn; rewrite T; reflexivity || auto.
    - destruct (m_task M) as [[c cl | c cl h [| x p]]|] eqn:T; try discriminate. injection H as <- <-.
      split; [|apply OQ; discriminate]. intros c'. rewrite phase_snoc. cbn [after]. apply (fits_else (phase_of es m c') M); auto; unfold closing, task_kid; cbn; rewrite T; reflexivity || auto.
    - destruct (m_task M) as [[c cl | c cl h [| x p]]|] eqn:T; try discriminate. destruct (m_kids M c) as [k|] eqn:E; try discriminate. injection H as <- <-.
      split; [|apply OQ; discriminate]. intros c'. rewrite phase_snoc. cbn [after]. destruct (Nat.eq_dec c' c) as [->|N].
      + pose proof (F c) as FC. destruct (phase_of es m c) as [| r | |] eqn:P; cbn [fits] in FC |- *.
        * congruence.
        * destruct FC as (k0 & A & B & C & Y & NC). replace k0 with k in * by congruence. destruct cl; [destruct NC; unfold closing; rewrite T; auto|].
          unfold set_task, set_kid. cbn [m_kids]. rewrite upd_same. eexists. repeat split; cbn; auto.
        * destruct FC as (k0 & A & B & C & Y & NC). destruct NC. unfold task_kid. rewrite T. reflexivity.
        * destruct FC as (k0 & A & B & C). replace k0 with k in * by congruence. unfold set_task, set_kid. cbn [m_kids]. rewrite upd_same. eexists. split; [reflexivity|].
          destruct cl; cbn; auto. destruct C as [C|C]; auto. unfold closing in C. rewrite T in C. destruct C; discriminate.
      + apply (fits_else (phase_of es m c') M); auto; unfold set_task, set_kid; cbn [m_kids].
        * apply upd_other; auto.
        * unfold closing. cbn. rewrite T. split; [tauto | intros [X _]; congruence].
        * cbn. discriminate.
    - destruct (idle M) eqn:I; try discriminate. injection H as <- <-. apply idle_inv in I. destruct I as [T QF]. split.
      + intros c'. rewrite phase_snoc. cbn [after]. apply (fits_else (phase_of es m c') M); auto; unfold closing, task_kid; cbn; rewrite T; reflexivity || auto.
      + cbn. split; auto. intros _. apply in_or_app. right. left. reflexivity.
  Qed.

  Lemma run_phases : forall es st, run init es = Some st -> forall m, kept es m (s_makes st m).
  Proof.
    induction es as [| [m e] es IH] using rev_ind; intros st H m'.
    - cbn in H. injection H as <-. split; cbn; auto. split; [discriminate | tauto].
    - apply run_snoc in H. destruct H as (st1 & H1 & H2). apply step_inv in H2. destruct H2 as (M' & l & A & -> & _ & _).
      destruct (Nat.eq_dec m' m) as [->|N].
      + rewrite upd_same. eapply act_kept; eauto. apply (run_kept cfg _ _ H1 m).
      + rewrite upd_other by auto. destruct (IH _ H1 m') as [F Q]. split.
        * intros c. rewrite phase_other by auto. apply F.
        * rewrite Q, in_app_iff. split; auto. intros [X | [X | []]]; auto. congruence.
  Qed.

  Lemma at_rest_phase : forall es m M c, kept es m M ->
    (exists k, at_rest M c = Some k) <-> ((exists r, phase_of es m c = Rest r) /\ ~ In (m, Quit) es /\ m_task M = None).
  Proof.
    intros es m M c [F Q]. split.
    - intros (k & H). apply at_rest_inv in H. destruct H as (E & D & T & QF & R). split; [|split; auto].
      + exists (k_ready k). rewrite (phase_live _ _ _ _ (F c) E D (no_task _ _ T)), R. reflexivity.
      + rewrite <- Q, QF. discriminate.
    - intros ((r & P) & NQ & T). pose proof (F c) as FC. rewrite P in FC. destruct FC as (k & A & B & C & _). exists k.
      unfold at_rest, live, idle. rewrite A, B, T, C. rewrite <- Q in NQ. destruct (m_quit M); tauto.
  Qed.

  Lemma run_may : forall es st m e, run init es = Some st -> of_dump e = false ->
    (exists st', step st m e = Some st') <-> (may es m e /\ (of_command e = true \/ not_dumping st m)).
  Proof.
    intros es st m e R OD. pose proof (run_phases es st R m) as K. assert (K0 := K). destruct K0 as [F Q].
    assert (L : (exists st', step st m e = Some st') <-> exists x, act m (s_makes st m) e = Some x).
    { unfold M_Output.step. assert (LA : lock_after m (s_makes st m) e (s_lock st) = Some (s_lock st)) by (destruct e; try discriminate; reflexivity). rewrite LA.
      destruct (act m (s_makes st m) e) as [[M' l]|]; split; intros (x & X); try discriminate; eexists; reflexivity. }
    rewrite L. clear L. unfold not_dumping. set (M := s_makes st m) in *.
    assert (NI : idle M = true <-> ~ In (m, Quit) es /\ m_task M = None).
    { rewrite <- Q. unfold idle. destruct (m_task M), (m_quit M); cbn; intuition congruence. }
    assert (AR : forall c, at_rest M c = None -> ~ ((exists r, phase_of es m c = Rest r) /\ ~ In (m, Quit) es /\ m_task M = None)).
    { intros c N X. apply (at_rest_phase es m M c K) in X. destruct X as (k & X). congruence. }
    destruct e as [c | c r | c err t | c | c err t | c | c | c | ok | | |]; try discriminate OD; cbn [act may of_command M_Output.act].
    - split.
      + intros (x & H). destruct (m_kids M c) as [k|] eqn:E; try discriminate. destruct (idle M) eqn:I; try discriminate. split; [|right; apply NI; auto]. split; [|apply NI; auto].
        pose proof (F c) as FC. destruct (phase_of es m c); cbn in FC; auto; [destruct FC as (k & X & _)| destruct FC as (k & X & _) | destruct FC as (k & X & _)]; congruence.
      + intros ([P NQ] & [X|X]); [discriminate|]. pose proof (F c) as FC. rewrite P in FC. cbn in FC. rewrite FC, (proj2 NI) by auto. eexists. reflexivity.
    - destruct (at_rest M c) as [k|] eqn:E.
      + split; [intros _ | intros _; eexists; reflexivity]. destruct (proj1 (at_rest_phase es m M c K) (ex_intro _ k E)) as (A & B & C). auto.
      + split; [intros (x & X); discriminate|]. intros ([A B] & [X|X]); [discriminate|]. destruct (AR c E). auto.
    - destruct (at_rest M c) as [k|] eqn:E.
      + destruct (proj1 (at_rest_phase es m M c K) (ex_intro _ k E)) as (A & B & C). destruct t as [| a t].
        * split; [intros (x & X); discriminate | intros ([_ [X _]] & _); destruct X; reflexivity].
        * split; [intros _; repeat split; auto; discriminate | intros _]. destruct (output_start cfg m (k_out k) (m_traced M)) as [[o1 tr] es1]. destruct (put m c o1 err (a :: t)). eexists. reflexivity.
      + split; [intros (x & X); discriminate|]. intros ((A & _ & B) & [X|X]); [discriminate|]. destruct (AR c E). auto.
    - destruct (at_rest M c) as [k|] eqn:E.
      + destruct (proj1 (at_rest_phase es m M c K) (ex_intro _ k E)) as ((r & A) & B & C). pose proof (F c) as FC. rewrite A in FC. destruct FC as (k0 & E0 & _ & _ & Y & _).
        apply at_rest_inv in E. replace k0 with k in * by (destruct E; congruence). rewrite A, Y. destruct r.
        * split; [intros _; auto | intros _]. destruct (output_start cfg m (k_out k) (m_traced M)) as [[o1 tr] es1]. eexists. reflexivity.
        * split; [intros (x & X); discriminate | intros ([X _] & _); discriminate].
      + split; [intros (x & X); discriminate|]. intros ((A & B) & [X|X]); [discriminate|]. destruct (AR c E). repeat split; auto. eexists. exact A.
    - pose proof (F c) as FC. unfold live. destruct (phase_of es m c) eqn:P; cbn in FC.
      + rewrite FC. split; [intros (x & X); discriminate | intros [X _]; discriminate].
      + destruct FC as (k & A & B & C & _). rewrite A, B, C. split; [intros (x & X); discriminate | intros [X _]; discriminate].
      + destruct FC as (k & A & B & C & _). rewrite A, B, C. split; [auto | intros _]. destruct (put m c (k_out k) err t). eexists. reflexivity.
      + destruct FC as (k & A & B & _). rewrite A. split; [|intros [X _]; discriminate]. intros (x & X). destruct (k_done k); try discriminate. rewrite B in X. discriminate.
    - pose proof (F c) as FC. unfold live. destruct (phase_of es m c) eqn:P; cbn in FC.
      + rewrite FC. split; [intros (x & X); discriminate | intros [X _]; discriminate].
      + destruct FC as (k & A & B & C & _). rewrite A, B, C. split; [intros (x & X); discriminate | intros [X _]; discriminate].
      + destruct FC as (k & A & B & C & _). rewrite A, B, C. split; [auto | intros _]. eexists. reflexivity.
      + destruct FC as (k & A & B & _). rewrite A. split; [|intros [X _]; discriminate]. intros (x & X). destruct (k_done k); try discriminate. rewrite B in X. discriminate.
    - destruct (at_rest M c) as [k|] eqn:E.
      + split; [intros _ | intros _; destruct (c_mode cfg); eexists; reflexivity]. destruct (proj1 (at_rest_phase es m M c K) (ex_intro _ k E)) as (A & B & C). auto.
      + split; [intros (x & X); discriminate|]. intros ([A B] & [X|X]); [discriminate|]. destruct (AR c E). auto.
    - destruct (at_rest M c) as [k|] eqn:E.
      + split; [intros _ | intros _; eexists; reflexivity]. destruct (proj1 (at_rest_phase es m M c K) (ex_intro _ k E)) as (A & B & C). auto.
      + split; [intros (x & X); discriminate|]. intros ([A B] & [X|X]); [discriminate|]. destruct (AR c E). auto.
    - split.
      + intros (x & H). destruct (idle M) eqn:I; try discriminate. destruct (proj1 NI eq_refl). auto.
      + intros (A & [X|X]); [discriminate|]. rewrite (proj2 NI) by auto. eexists. reflexivity.
  Qed.
End Proofs.
