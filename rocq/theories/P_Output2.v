(** The blocks in which output is written. *)
From Verif Require Import Base M_Output S_Output P_Output.
Open Scope list_scope.
Open Scope nat_scope.

Section Proofs.
  Variable cfg : config.
  Local Notation act := (act cfg).
  Local Notation step := (step cfg).
  Local Notation run := (run cfg).
  Local Notation held := (held_back cfg).

  Lemma held_app : forall a b m c, held (a ++ b) m c -> held a m c.
  Proof. intros a b m c [H | [H N]]; [left; auto | right; split; auto]. intros I. apply N, in_or_app. auto. Qed.

  Definition closing (M : make) (c : nat) : Prop :=
    match m_task M with Some (T_wait c' cl) | Some (T_pump c' cl _ _) => c' = c /\ cl = true | None => False end.

  Record fine (es : list (nat * event)) (m : nat) (M : make) : Prop := {
    f_wait : forall c cl k, m_task M = Some (T_wait c cl) -> m_kids M c = Some k -> some_output (k_out k) = true;
    f_done : forall c k, m_kids M c = Some k -> k_done k = true -> In (m, Finish c) es;
    f_close : forall c, closing M c -> In (m, Finish c) es;
    f_finish : forall c, In (m, Finish c) es -> (exists k, m_kids M c = Some k /\ k_done k = true) \/ closing M c;
    f_sync : forall c k, held es m c -> m_kids M c = Some k -> o_sync (k_out k) = true;
    f_runs : forall c k, m_kids M c = Some k -> k_runs k = true -> o_sync (k_out k) = true -> is_set (k_out k) = true;
    f_held : forall c, held es m c -> task_kid M = Some c -> closing M c }.

  Lemma held_syncs : forall es m c, held es m c -> syncs (c_mode cfg) = true.
  Proof. intros es m c [H | [H _]]; rewrite H; reflexivity. Qed.

  Lemma closing_kid : forall M c, closing M c -> task_kid M = Some c.
  Proof. intros M c H. unfold closing, task_kid in *. destruct (m_task M) as [[|]|]; intuition congruence. Qed.

  (** A change of one child that no dump is about. *)
  Lemma fine_set : forall es m M c k tr q e, good cfg m M -> fine es m M -> task_kid M <> Some c ->
    (forall c', e <> Finish c') ->
    k_done k = false -> (forall k0, m_kids M c = Some k0 -> k_done k0 = false) ->
    (held (es ++ [(m, e)]) m c -> o_sync (k_out k) = true) ->
    (k_runs k = true -> o_sync (k_out k) = true -> is_set (k_out k) = true) ->
    fine (es ++ [(m, e)]) m (mkmake (upd (m_kids M) c (Some k)) tr (m_task M) q).
  Proof.
    intros es m M c k tr q e G F T NF D D0 Hs Hr.
    assert (TK : forall f, task_kid (mkmake f tr (m_task M) q) = task_kid M) by reflexivity.
    assert (CK : forall f c', closing (mkmake f tr (m_task M) q) c' <-> closing M c') by (intros; unfold closing; reflexivity).
    assert (IN : forall c', In (m, Finish c') (es ++ [(m, e)]) <-> In (m, Finish c') es).
    { intros c'. rewrite in_app_iff. split; auto. intros [H | [H | []]]; auto. injection H as H. destruct (NF c' H). }
    constructor; cbn [m_kids m_task].
    - intros c' cl k' HT H. assert (c' <> c). { intros ->. apply T. unfold task_kid. rewrite HT. reflexivity. }
      rewrite upd_other in H by auto. eapply f_wait; eauto.
    - intros c' k' H HD. apply IN. unfold upd in H. destruct (c' =? c); [congruence|]. eapply f_done; eauto.
    - intros c' H. apply IN. apply CK in H. eapply f_close; eauto.
    - intros c' H. apply IN in H. destruct (f_finish _ _ _ F c' H) as [(k0 & K0 & D1) | C]; [left | right; apply CK; auto].
      exists k0. split; auto. rewrite upd_other; auto. intros ->. rewrite (D0 _ K0) in D1. discriminate.
    - intros c' k' H K. unfold upd in K. destruct (c' =? c) eqn:E; [injection K as <-; apply Nat.eqb_eq in E; subst; auto|].
      eapply f_sync; eauto using held_app.
    - intros c' k' K. unfold upd in K. destruct (c' =? c) eqn:E; [injection K as <-; auto|]. eapply f_runs; eauto.
    - intros c' H HT. apply CK. rewrite TK in HT. eapply f_held; eauto using held_app.
  Qed.

  Lemma fine_begin : forall es m M c k (cl : bool) e, good cfg m M -> fine es m M -> m_task M = None ->
    k_done k = false -> k_runs k = false -> (exists k0, m_kids M c = Some k0 /\ k_done k0 = false) ->
    (held (es ++ [(m, e)]) m c -> o_sync (k_out k) = true) ->
    (if cl then e = Finish c else (forall c', e <> Finish c') /\ ~ held (es ++ [(m, e)]) m c) ->
    fine (es ++ [(m, e)]) m (begin_dump cfg M c k cl).
  Proof.
    intros es m M c k cl e G F T D R (k0 & K0 & D0) Hs HC.
    assert (INn : forall c', c' <> c \/ cl = false -> In (m, Finish c') (es ++ [(m, e)]) -> In (m, Finish c') es).
    { intros c' Hc H. rewrite in_app_iff in H. destruct H as [H | [H | []]]; auto. injection H as H. destruct cl.
      - destruct Hc as [Hc|]; try discriminate. congruence.
      - destruct HC as [HC _]. destruct (HC c' H). }
    assert (NC : ~ In (m, Finish c) es).
    { intros I. destruct (f_finish _ _ _ F c I) as [(k1 & K1 & D1) | C]; [congruence|]. unfold closing in C. rewrite T in C. auto. }
    unfold begin_dump. destruct (some_output (k_out k)) eqn:S.
    - unfold set_task, set_kid. constructor; cbn [m_kids m_task task_kid].
      + intros c' cl' k' HT H. injection HT as <- <-. rewrite upd_same in H. congruence.
      + intros c' k' H HD. apply in_or_app. left. unfold upd in H. destruct (c' =? c); [congruence|]. eapply f_done; eauto.
      + intros c' [<- H]. rewrite H in HC. rewrite HC. apply in_or_app. right. left. reflexivity.
      + intros c' H. destruct (Nat.eq_dec c' c) as [->|N].
        * right. cbn. split; auto. destruct cl; [reflexivity|]. exfalso. apply NC, INn; auto.
        * left. destruct (f_finish _ _ _ F c' (INn _ (or_introl N) H)) as [(k1 & K1 & D1) | C].
          -- exists k1. rewrite upd_other; auto.
          -- unfold closing in C. rewrite T in C. destruct C.
      + intros c' k' H K. unfold upd in K. destruct (c' =? c) eqn:E; [injection K as <-; apply Nat.eqb_eq in E; subst; auto|].
        eapply f_sync; eauto using held_app.
      + intros c' k' K. unfold upd in K. destruct (c' =? c) eqn:E; [injection K as <-; congruence|]. eapply f_runs; eauto.
      + intros c' H HT. injection HT as <-. cbn. split; auto. destruct cl; auto. tauto.
    - destruct cl.
      + subst e. unfold set_kid. constructor; cbn [m_kids m_task].
        * rewrite T. discriminate.
        * intros c' k' H HD. apply in_or_app. unfold upd in H. destruct (c' =? c) eqn:E.
          -- apply Nat.eqb_eq in E. subst. right. left. reflexivity.
          -- left. eapply f_done; eauto.
        * unfold closing. cbn. rewrite T. tauto.
        * intros c' H. left. destruct (Nat.eq_dec c' c) as [->|N].
          -- exists (closed cfg k). rewrite upd_same. auto.
          -- destruct (f_finish _ _ _ F c' (INn _ (or_introl N) H)) as [(k1 & K1 & D1) | C].
             ++ exists k1. rewrite upd_other; auto.
             ++ unfold closing in C. rewrite T in C. destruct C.
        * intros c' k' H K. unfold upd in K. destruct (c' =? c) eqn:E; [injection K as <-; cbn; eapply held_syncs; eauto|].
          eapply f_sync; eauto using held_app.
        * intros c' k' K. unfold upd in K. destruct (c' =? c) eqn:E; [injection K as <-; discriminate|]. eapply f_runs; eauto.
        * unfold task_kid. cbn. rewrite T. discriminate.
      + destruct HC as [HC HN]. unfold set_kid. apply fine_set; auto using task_none; congruence.
  Qed.

  Lemma fine_same : forall es m M tr q e, fine es m M -> (forall c, e <> Finish c) -> fine (es ++ [(m, e)]) m (mkmake (m_kids M) tr (m_task M) q).
  Proof.
    intros es m M tr q e F NF.
    assert (IN : forall c', In (m, Finish c') (es ++ [(m, e)]) <-> In (m, Finish c') es).
    { intros c'. rewrite in_app_iff. split; auto. intros [H | [H | []]]; auto. injection H as H. destruct (NF c' H). }
    constructor; cbn [m_kids m_task].
    - eapply f_wait; eauto.
    - intros. apply IN. eapply f_done; eauto.
    - intros. apply IN. eapply f_close; eauto.
    - intros c H. apply IN in H. exact (f_finish _ _ _ F c H).
    - intros. eapply f_sync; eauto using held_app.
    - eapply f_runs; eauto.
    - intros c H HT. exact (f_held _ _ _ F c (held_app _ _ _ _ H) HT).
  Qed.

  Lemma put_set : forall m c o err t o' es, put m c o err t = (o', es) -> is_set o' = is_set o /\ (o_sync o = true -> wfo cfg o -> is_set o = true -> es = []).
  Proof.
    intros m c o err t o' es H. unfold put, is_set in *. unfold wfo.
    destruct o as [[oo|] [oe|] [] []], err; cbn in H; injection H as <- <-; cbn; (split; [reflexivity|]); intros Sy W I;
      try discriminate Sy; try discriminate I; try reflexivity;
      destruct W as [[? ?] | [(? & ? & ? & ? & ?) | (? & ? & [? ?] & [? ?])]]; congruence.
  Qed.
  Lemma start_set : forall m o tr o' tr' es, output_start cfg m o tr = (o', tr', es) -> o_sync o = true -> is_set o' = true.
  Proof.
    intros m o tr o' tr' es H S. unfold output_start in H. rewrite S in H. cbn in H.
    assert (A : is_set (if negb (is_set o) then setup_tmpfile cfg o else o) = true).
    { destruct (is_set o) eqn:I; cbn; auto. unfold setup_tmpfile. destruct (c_same cfg); reflexivity. }
    destruct (_ && _ && _) in H; injection H as <- <- <-; exact A.
  Qed.

  (** Entries of children held back are all written by dumps. *)
  Definition all_dumped (es : list (nat * event)) (m : nat) (en : list entry) : Prop :=
    forall c x, held es m c -> In x en -> of_kid m c x = true -> e_dump x = true.

  Lemma act_fine : forall es m M e M' en, good cfg m M -> fine es m M -> act m M e = Some (M', en) ->
    fine (es ++ [(m, e)]) m M' /\ all_dumped (es ++ [(m, e)]) m en.
  Proof.
    intros es m M e M' en G F H.
    assert (Dnil : forall es', all_dumped es' m []) by (intros es' c x _ []).
    destruct e as [c | c r | c err t | c | c err t | c | c | c | ok | | |]; cbn [M_Output.act] in H.
    - destruct (m_kids M c) eqn:K; try discriminate. unfold idle in H. destruct (m_task M) eqn:T; try discriminate.
      destruct (negb (m_quit M)); try discriminate. injection H as <- <-. split; auto. unfold set_kid.
      apply fine_set; auto using task_none; try congruence; try discriminate. cbn. apply held_syncs.
    - destruct (at_rest M c) as [k|] eqn:A; try discriminate. apply at_rest_some in A. destruct A as (K & D & R & T).
      set (sync := _ && _) in H. assert (SH : held (es ++ [(m, Start c r)]) m c -> sync = true).
      { intros HH. subst sync. rewrite (held_syncs _ _ _ HH). destruct HH as [HH | [HH N]]; rewrite HH; auto.
        destruct r; auto. destruct N. apply in_or_app. right. left. reflexivity. }
      injection H as <- <-. split; auto. destruct sync eqn:S.
      + unfold set_kid. apply fine_set; auto using task_none; try congruence; try discriminate.
      + apply fine_begin; eauto. split; [discriminate|]. intros HH. specialize (SH HH). discriminate.
    - destruct (at_rest M c) as [k|] eqn:A; try discriminate. apply at_rest_some in A. destruct A as (K & D & R & T).
      destruct t as [| a t]; try discriminate. remember (a :: t) as txt eqn:TX. clear TX.
      destruct (output_start cfg m (k_out k) (m_traced M)) as [[o1 tr] es1] eqn:O.
      destruct (put m c o1 err txt) as [o2 es2] eqn:P. injection H as <- <-.
      destruct (start_spec _ _ _ _ _ _ _ (g_wf _ _ _ G _ _ K) O) as (W1 & S1 & C1 & E1).
      assert (S2 : o_sync o2 = o_sync o1). { unfold put in P. destruct (o_sync o1) eqn:Q, (err && negb (o_same o1)), (o_out o1), (o_err o1); injection P as <- <-; auto. }
      destruct (put_set _ _ _ _ _ _ _ P) as [P1 P2]. split.
      + unfold set_kid. cbn [m_kids m_task m_traced m_quit]. apply fine_set; auto using task_none; try congruence; try discriminate. cbn.
        intros HH. rewrite S2, S1. eapply f_sync; eauto using held_app.
      + intros c' x HH I O'. apply in_app_or in I. destruct I as [I|I].
        * rewrite Forall_forall in E1. destruct (E1 _ I) as (_ & _ & X). unfold of_kid in O'. rewrite X, andb_false_r in O'. discriminate.
        * destruct (Nat.eq_dec c' c) as [->|N].
          -- assert (Sy : o_sync (k_out k) = true) by (eapply f_sync; eauto using held_app).
             rewrite P2 in I; [destruct I | congruence | auto | eapply start_set; eauto].
          -- unfold put in P. assert (X : e_kid x = Some c).
             { destruct (o_sync o1), (err && negb (o_same o1)), (o_out o1), (o_err o1); injection P as <- <-; cbn in I; destruct I as [<-|[]] || destruct I; reflexivity. }
             unfold of_kid in O'. rewrite X in O'. apply andb_true_iff in O'. destruct O' as [_ O']. apply Nat.eqb_eq in O'. congruence.
    - destruct (at_rest M c) as [k|] eqn:A; try discriminate. apply at_rest_some in A. destruct A as (K & D & R & T).
      destruct (k_ready k); try discriminate.
      destruct (output_start cfg m (k_out k) (m_traced M)) as [[o1 tr] es1] eqn:O. injection H as <- <-.
      destruct (start_spec _ _ _ _ _ _ _ (g_wf _ _ _ G _ _ K) O) as (W1 & S1 & C1 & E1). unfold set_kid. cbn [m_kids m_task m_traced m_quit]. split.
      + apply fine_set; auto using task_none; try congruence; try discriminate; cbn.
        * intros HH. rewrite S1. eapply f_sync; eauto using held_app.
        * intros _ Q. eapply start_set; eauto; congruence.
      + intros c' x HH I O'. rewrite Forall_forall in E1. destruct (E1 _ I) as (_ & _ & X). unfold of_kid in O'. rewrite X, andb_false_r in O'. discriminate.
    - destruct (live M c) as [k|] eqn:A; try discriminate. apply live_some in A. destruct A as (K & D).
      destruct (k_runs k) eqn:R; try discriminate. destruct (put m c (k_out k) err t) as [o2 es2] eqn:P. injection H as <- <-.
      assert (T : task_kid M <> Some c).
      { intros T. destruct (g_task _ _ _ G _ T) as (k0 & K0 & R0 & _). congruence. }
      assert (S2 : o_sync o2 = o_sync (k_out k)). { unfold put in P. destruct (o_sync (k_out k)) eqn:Q, (err && negb (o_same (k_out k))), (o_out (k_out k)), (o_err (k_out k)); injection P as <- <-; auto. }
      destruct (put_set _ _ _ _ _ _ _ P) as [P1 P2]. split.
      + unfold set_kid. apply fine_set; auto; try congruence; try discriminate; cbn.
        * intros HH. rewrite S2. eapply f_sync; eauto using held_app.
        * intros _ Q. rewrite P1. eapply f_runs; eauto; congruence.
      + intros c' x HH I O'. destruct (Nat.eq_dec c' c) as [->|N].
        * assert (Sy : o_sync (k_out k) = true) by (eapply f_sync; eauto using held_app).
          rewrite P2 in I; [destruct I | auto | eapply g_wf; eauto | eapply f_runs; eauto].
        * unfold put in P. assert (X : e_kid x = Some c).
          { destruct (o_sync (k_out k)), (err && negb (o_same (k_out k))), (o_out (k_out k)), (o_err (k_out k)); injection P as <- <-; cbn in I; destruct I as [<-|[]] || destruct I; reflexivity. }
          unfold of_kid in O'. rewrite X in O'. apply andb_true_iff in O'. destruct O' as [_ O']. apply Nat.eqb_eq in O'. congruence.
    - destruct (live M c) as [k|] eqn:A; try discriminate. apply live_some in A. destruct A as (K & D).
      destruct (k_runs k) eqn:R; try discriminate. injection H as <- <-.
      assert (T : task_kid M <> Some c).
      { intros T. destruct (g_task _ _ _ G _ T) as (k0 & K0 & R0 & _). congruence. }
      split; auto. unfold set_kid. apply fine_set; auto; try congruence; try discriminate. cbn. intros HH. eapply f_sync; eauto using held_app.
    - destruct (at_rest M c) as [k|] eqn:A; try discriminate. apply at_rest_some in A. destruct A as (K & D & R & T).
      assert (Same : Some (M, []) = Some (M', en) -> fine (es ++ [(m, Next c)]) m M' /\ all_dumped (es ++ [(m, Next c)]) m en).
      { intros E. injection E as <- <-. split; auto. destruct M as [kk tr ta q]. apply (fine_same _ _ _ tr q _ F). discriminate. }
      destruct (c_mode cfg) eqn:MO; try (exact (Same H)). injection H as <- <-. split; auto.
      apply fine_begin; eauto. + intros HH. eapply f_sync; eauto using held_app. + split; [discriminate|]. unfold held_back. rewrite MO. intros [X | [X _]]; discriminate.
    - destruct (at_rest M c) as [k|] eqn:A; try discriminate. apply at_rest_some in A. destruct A as (K & D & R & T). injection H as <- <-. split; auto.
      apply fine_begin; eauto. intros HH. eapply f_sync; eauto using held_app.
    - destruct (m_task M) as [[c cl | ]|] eqn:T; try discriminate. destruct (m_kids M c) as [k|] eqn:K; try discriminate. injection H as <- <-. split; auto.
      assert (IN : forall c', In (m, Finish c') (es ++ [(m, Acquire ok)]) <-> In (m, Finish c') es).
      { intros c'. rewrite in_app_iff. split; auto. intros [H | [H | []]]; auto. discriminate. }
      assert (CK : forall c' l, closing (mkmake (m_kids M) (m_traced M) (Some (T_pump c cl ok l)) (m_quit M)) c' <-> closing M c').
      { intros. unfold closing. cbn. rewrite T. reflexivity. }
      unfold set_task. constructor; cbn [m_kids m_task task_kid].
      + intros; discriminate.
      + intros. apply IN. eapply f_done; eauto.
      + intros c' H. apply IN. apply CK in H. eapply f_close; eauto.
      + intros c' H. apply IN in H. destruct (f_finish _ _ _ F c' H); [left | right; apply CK]; auto.
      + intros. eapply f_sync; eauto using held_app.
      + eapply f_runs; eauto.
      + intros c' HH HT. apply CK. eapply f_held; eauto using held_app. unfold task_kid. rewrite T. exact HT.
    - destruct (m_task M) as [[c cl | c cl h [|x l]]|] eqn:T; try discriminate. injection H as <- <-.
      pose proof (g_pend _ _ _ G _ _ _ _ T) as P. inversion P as [| x' l' P1 P2]; subst. split.
      2: { intros c' y HH [<-|[]] _. tauto. }
      assert (IN : forall c', In (m, Finish c') (es ++ [(m, Pump)]) <-> In (m, Finish c') es).
      { intros c'. rewrite in_app_iff. split; auto. intros [H | [H | []]]; auto. discriminate. }
      assert (CK : forall c', closing (mkmake (m_kids M) (m_traced M) (Some (T_pump c cl h l)) (m_quit M)) c' <-> closing M c').
      { intros. unfold closing. cbn. rewrite T. reflexivity. }
      unfold set_task. constructor; cbn [m_kids m_task task_kid].
      + intros; discriminate.
      + intros. apply IN. eapply f_done; eauto.
      + intros c' H. apply IN. apply CK in H. eapply f_close; eauto.
      + intros c' H. apply IN in H. destruct (f_finish _ _ _ F c' H); [left | right; apply CK]; auto.
      + intros. eapply f_sync; eauto using held_app.
      + eapply f_runs; eauto.
      + intros c' HH HT. apply CK. eapply f_held; eauto using held_app. unfold task_kid. rewrite T. exact HT.
    - destruct (m_task M) as [[c cl | c cl h [|x l]]|] eqn:T; try discriminate. destruct (m_kids M c) as [k|] eqn:K; try discriminate. injection H as <- <-. split; auto.
      assert (IN : forall c', In (m, Finish c') (es ++ [(m, Release)]) <-> In (m, Finish c') es).
      { intros c'. rewrite in_app_iff. split; auto. intros [H | [H | []]]; auto. discriminate. }
      assert (TK : task_kid M = Some c) by (unfold task_kid; rewrite T; reflexivity).
      destruct (g_task _ _ _ G _ TK) as (k0 & K0 & R0 & D0). replace k0 with k in * by congruence. clear k0 K0.
      unfold set_task, set_kid. constructor; cbn [m_kids m_task task_kid]; try (intros; discriminate).
      + intros c' k' H HD. apply IN. unfold upd in H. destruct (c' =? c) eqn:E; [|eapply f_done; eauto].
        apply Nat.eqb_eq in E. subst c'. injection H as <-. destruct cl; [|cbn in HD; congruence]. eapply f_close; eauto. unfold closing. rewrite T. auto.
      + intros c' [].
      + intros c' H. apply IN in H. left. destruct (f_finish _ _ _ F c' H) as [(k1 & K1 & D1) | C].
        * exists k1. split; auto. rewrite upd_other; auto. intros ->. congruence.
        * unfold closing in C. rewrite T in C. destruct C as [<- ->]. exists (closed cfg (mkkid (truncated (k_out k)) (k_runs k) (k_ready k) (k_done k))). rewrite upd_same. auto.
      + intros c' k' HH H. unfold upd in H. destruct (c' =? c) eqn:E; [|eapply f_sync; eauto using held_app].
        apply Nat.eqb_eq in E. subst c'. injection H as <-. destruct cl; cbn; [eapply held_syncs; eauto | eapply f_sync; eauto using held_app].
      + intros c' k' H. unfold upd in H. destruct (c' =? c) eqn:E; [|eapply f_runs; eauto]. injection H as <-. destruct cl; cbn; congruence.
    - unfold idle in H. destruct (m_task M) eqn:T; try discriminate. destruct (negb (m_quit M)); try discriminate. injection H as <- <-. split.
      + pose proof (fine_same es m M (m_traced M) true Quit F ltac:(discriminate)) as X. rewrite T in X. exact X.
      + intros c x HH I O. destruct (m_traced M); [|destruct I]. destruct I as [<-|[]]. unfold of_kid in O. cbn in O. rewrite andb_false_r in O. discriminate.
  Qed.

  Lemma fine_other : forall es m M x, fine es m M -> fst x <> m -> fine (es ++ [x]) m M.
  Proof.
    intros es m M [m0 e] F N. cbn in N.
    assert (IN : forall c', In (m, Finish c') (es ++ [(m0, e)]) <-> In (m, Finish c') es).
    { intros c'. rewrite in_app_iff. split; auto. intros [H | [H | []]]; auto. congruence. }
    constructor.
    - apply (f_wait _ _ _ F).
    - intros. apply IN. eapply f_done; eauto.
    - intros. apply IN. eapply f_close; eauto.
    - intros c H. apply IN in H. exact (f_finish _ _ _ F c H).
    - intros. eapply f_sync; eauto using held_app.
    - apply (f_runs _ _ _ F).
    - intros c H HT. exact (f_held _ _ _ F c (held_app _ _ _ _ H) HT).
  Qed.

  Lemma fine_init : forall m, fine [] m (s_makes init m).
  Proof. intros m. constructor; cbn; try discriminate; intros; tauto. Qed.

  Theorem run_fine : forall es st, run init es = Some st -> forall m, fine es m (s_makes st m) /\ all_dumped es m (s_term st).
  Proof.
    induction es as [| [m0 e] es IH] using rev_ind; intros st H m.
    - injection H as <-. split; [apply fine_init | intros c x _ []].
    - apply run_snoc in H. destruct H as (st1 & R & S). apply step_inv in S. destruct S as (M' & en & A & SM & ST & _).
      destruct (IH _ R m0) as [F0 _]. destruct (IH _ R m) as [F Q]. destruct (run_kept cfg _ _ R m0) as [G0 _].
      destruct (act_fine _ _ _ _ _ _ G0 F0 A) as [F' D]. destruct (act_fits _ _ _ _ _ _ G0 A) as (_ & Em & _). rewrite SM, ST.
      assert (Q' : all_dumped (es ++ [(m0, e)]) m (s_term st1)) by (intros c x HH I; eapply Q; eauto using held_app).
      destruct (Nat.eq_dec m m0) as [->|N].
      + rewrite upd_same. split; auto. intros c x HH I. apply in_app_or in I. destruct I; [eapply Q' | eapply D]; eauto.
      + rewrite upd_other by auto. split; [apply fine_other; auto|]. intros c x HH I. apply in_app_or in I. destruct I as [I|I]; [eapply Q'; eauto|].
        rewrite Forall_forall in Em. intros O. unfold of_kid in O. rewrite (Em _ I) in O. apply not_eq_sym, Nat.eqb_neq in N. rewrite N in O. discriminate.
  Qed.
End Proofs.
