(** Proofs about the output of parallel jobs. *)
From Verif Require Import Base M_Output S_Output.
Open Scope list_scope.
Open Scope nat_scope.

Lemma upd_same {A} (f : nat -> A) n a : upd f n a n = a.
Proof. unfold upd. rewrite Nat.eqb_refl. reflexivity. Qed.
Lemma upd_other {A} (f : nat -> A) n a k : k <> n -> upd f n a k = f k.
Proof. intros H. unfold upd. apply Nat.eqb_neq in H. rewrite H. reflexivity. Qed.

Section Proofs.
  Variable cfg : config.
  Local Notation act := (act cfg).
  Local Notation step := (step cfg).
  Local Notation run := (run cfg).

  Lemma run_app : forall a b st, run st (a ++ b) = match run st a with Some st' => run st' b | None => None end.
  Proof. induction a as [| [m e] a IH]; intros b st; cbn; auto. destruct (step st m e); auto. Qed.

  Lemma run_snoc : forall es m e st st', run st (es ++ [(m, e)]) = Some st' ->
    exists st1, run st es = Some st1 /\ step st1 m e = Some st'.
  Proof.
    intros es m e st st' H. rewrite run_app in H. destruct (run st es) as [st1|]; try discriminate.
    exists st1. split; auto. cbn in H. destruct (step st1 m e); congruence.
  Qed.

  Lemma step_inv : forall st m e st', step st m e = Some st' ->
    exists M' es, act m (s_makes st m) e = Some (M', es) /\ s_makes st' = upd (s_makes st) m M'
      /\ s_term st' = s_term st ++ es /\ lock_after m (s_makes st m) e (s_lock st) = Some (s_lock st').
  Proof.
    intros st m e st' H. unfold M_Output.step in H.
    destruct (act m (s_makes st m) e) as [[M' es]|] eqn:A; try discriminate.
    destruct (lock_after m (s_makes st m) e (s_lock st)) as [l|] eqn:L; try discriminate.
    injection H as <-. exists M', es. cbn. auto.
  Qed.

  (** * Lists of what was said and shown *)
  Lemma said_app : forall a b m c, said (a ++ b) m c = said a m c ++ said b m c.
  Proof. intros. unfold said. apply flat_map_app. Qed.
  Lemma shown_app : forall a b m c, shown (a ++ b) m c = shown a m c ++ shown b m c.
  Proof. intros. unfold shown. apply flat_map_app. Qed.
  Lemma bytes_app : forall s d a b, bytes s d (a ++ b) = bytes s d a ++ bytes s d b.
  Proof. intros. unfold bytes. rewrite filter_app, map_app, concat_app. reflexivity. Qed.

  Lemma shown_other : forall l m c, Forall (fun e => e_make e <> m) l -> shown l m c = [].
  Proof.
    induction 1 as [| e l H _ IH]; auto. unfold shown in *. cbn. rewrite IH, app_nil_r.
    destruct (e_what e); auto. unfold of_kid. apply Nat.eqb_neq in H. rewrite H. reflexivity.
  Qed.
  Lemma shown_none : forall l m c, Forall (fun e => of_kid m c e = false) l -> shown l m c = [].
  Proof.
    induction 1 as [| e l H _ IH]; auto. unfold shown in *. cbn. rewrite IH, app_nil_r.
    destruct (e_what e); auto. rewrite H. reflexivity.
  Qed.
  Lemma shown_single : forall m c c' b err t, shown [mkentry m (Some c') b (Text err t)] m c = if c' =? c then [(err, t)] else [].
  Proof. intros. unfold shown, of_kid. cbn. rewrite Nat.eqb_refl. cbn. destruct (c' =? c); reflexivity. Qed.

  Lemma buffers_all : forall n s, concat (buffers cfg n s) = s.
  Proof.
    induction n as [| n IH]; intros s; cbn.
    - destruct s; cbn; rewrite ?app_nil_r; reflexivity.
    - destruct s as [| a s]; auto. cbn [concat]. rewrite IH. apply firstn_skipn.
  Qed.
  Lemma buffers_some : forall s, s <> [] -> buffers cfg (length s) s <> [].
  Proof. intros [| a s] H; cbn; congruence. Qed.

  Definition content (d : bool) (o : output) : str :=
    let f := if c_same cfg then o_out o else if d then o_err o else o_out o in
    match f with Some s => s | None => [] end.

  (** A set of descriptors as setup_tmpfile makes it. *)
  Definition wfo (o : output) : Prop :=
    (o_out o = None /\ o_err o = None)
    \/ (c_same cfg = true /\ o_same o = true /\ o_err o = None /\ exists s, o_out o = Some s)
    \/ (c_same cfg = false /\ o_same o = false /\ (exists s, o_out o = Some s) /\ (exists s, o_err o = Some s)).

  Lemma shown_texts : forall m c err l, shown (map (fun t => mkentry m (Some c) true (Text err t)) l) m c = map (fun t => (err, t)) l.
  Proof.
    induction l as [| t l IH]; auto. cbn [map]. change (?x :: ?y) with ([x] ++ y) at 1. rewrite shown_app, shown_single, Nat.eqb_refl, IH. reflexivity.
  Qed.
  Lemma bytes_texts : forall s d err l, bytes s d (map (fun t => (err, t)) l) = if s || Bool.eqb err d then concat l else [].
  Proof.
    intros s d err l. unfold bytes. induction l as [| t l IH]; cbn; [destruct (s || _); auto|].
    destruct (s || Bool.eqb err d) eqn:E; cbn; rewrite IH; reflexivity.
  Qed.
  Lemma bytes_pump : forall m c err f d, bytes (c_same cfg) d (shown (pump cfg m c err f) m c) =
    if c_same cfg || Bool.eqb err d then match f with Some s => s | None => [] end else [].
  Proof.
    intros m c err f d. unfold pump. destruct f as [s|].
    - rewrite shown_texts, bytes_texts, buffers_all. reflexivity.
    - cbn. destruct (_ || _); reflexivity.
  Qed.
  Lemma shown_dir : forall m c b w, w = Enter \/ w = Leave -> shown [mkentry m None b w] m c = [].
  Proof. intros m c b w [-> | ->]; reflexivity. Qed.

  Lemma dump_bytes : forall m c o d, wfo o -> bytes (c_same cfg) d (shown (dump_entries cfg m c o) m c) = content d o.
  Proof.
    intros m c o d W. unfold dump_entries. rewrite !shown_app, !bytes_app, !bytes_pump.
    assert (E : forall w, w = Enter \/ w = Leave -> bytes (c_same cfg) d (shown (if c_print cfg && per_dump (c_mode cfg) then [mkentry m None true w] else []) m c) = []).
    { intros w Hw. destruct (_ && _); auto. rewrite shown_dir; auto. }
    rewrite !E; auto. cbn [app]. rewrite app_nil_r. unfold content.
    destruct W as [[Ho He] | [(Hs & Hs' & He & s & Ho) | (Hs & Hs' & [s Ho] & [s' He])]]; rewrite Ho, He.
    - destruct (c_same cfg), d; reflexivity.
    - rewrite Hs. cbn. apply app_nil_r.
    - rewrite Hs. cbn. destruct d; cbn; rewrite ?app_nil_r; reflexivity.
  Qed.

  Definition kid_content (M : make) (c : nat) (d : bool) : str :=
    match m_kids M c with Some k => content d (k_out k) | None => [] end.
  Definition waiting (m : nat) (M : make) (c : nat) (d : bool) : str :=
    match m_task M with
    | Some (T_pump c' _ _ l) => if c' =? c then bytes (c_same cfg) d (shown l m c) else kid_content M c d
    | _ => kid_content M c d
    end.
  Definition task_kid (M : make) : option nat :=
    match m_task M with Some (T_wait c _) | Some (T_pump c _ _ _) => Some c | None => None end.

  (** One make, with what has been said and shown of its children. *)
  Record good (m : nat) (M : make) : Prop := {
    g_wf : forall c k, m_kids M c = Some k -> wfo (k_out k);
    g_task : forall c, task_kid M = Some c -> exists k, m_kids M c = Some k /\ k_runs k = false /\ k_done k = false;
    g_pend : forall c cl h l, m_task M = Some (T_pump c cl h l) ->
               Forall (fun e => e_make e = m /\ e_dump e = true /\ (e_kid e = None \/ e_kid e = Some c)) l;
    g_sync : forall c k, m_kids M c = Some k -> o_sync (k_out k) = false -> task_kid M <> Some c -> forall d, content d (k_out k) = [];
    g_done : forall c k, m_kids M c = Some k -> k_done k = true -> forall d, content d (k_out k) = [] }.

  Lemma some_output_false : forall o, some_output o = false -> forall d, content d o = [].
  Proof.
    intros o H d. unfold some_output in H. apply orb_false_iff in H. destruct H as [H1 H2]. unfold content.
    destruct (if c_same cfg then o_out o else if d then o_err o else o_out o) as [[| a s]|] eqn:F; auto.
    destruct (c_same cfg), d; rewrite F in *; cbn in *; discriminate.
  Qed.
  Lemma content_init : forall d, content d (output_init cfg) = [].
  Proof. intros d. unfold content. cbn. destruct (c_same cfg), d; reflexivity. Qed.
  Lemma content_truncated : forall d o, content d (truncated o) = [].
  Proof. intros d o. unfold content, truncated, empty. cbn. destruct (c_same cfg), d, (o_out o), (o_err o); reflexivity. Qed.
  Lemma wfo_init : wfo (output_init cfg).
  Proof. left. auto. Qed.
  Lemma wfo_truncated : forall o, wfo o -> wfo (truncated o).
  Proof.
    intros o [[Ho He] | [(Hs & Hs' & He & s & Ho) | (Hs & Hs' & [s Ho] & [s' He])]]; unfold wfo, truncated, empty; cbn; rewrite Ho, He.
    - auto.
    - right. left. eauto.
    - right. right. split; auto. split; auto. eauto.
  Qed.

  Lemma put_spec : forall m c o err t o' es d, wfo o -> (o_sync o = false -> content d o = []) -> put m c o err t = (o', es) ->
    wfo o' /\ o_sync o' = o_sync o /\
    bytes (c_same cfg) d (shown es m c) ++ content d o' = content d o ++ bytes (c_same cfg) d [(err, t)] /\
    (o_sync o = false -> content d o' = []) /\
    Forall (fun e => e_make e = m /\ e_dump e = false /\ e_kid e = Some c) es.
  Proof.
    intros m c o err t o' es d W Z H.
    assert (D : (o, [mkentry m (Some c) false (Text err t)]) = (o', es) -> content d o = [] ->
      wfo o' /\ o_sync o' = o_sync o /\
      bytes (c_same cfg) d (shown es m c) ++ content d o' = content d o ++ bytes (c_same cfg) d [(err, t)] /\
      (o_sync o = false -> content d o' = []) /\
      Forall (fun e => e_make e = m /\ e_dump e = false /\ e_kid e = Some c) es).
    { intros E C. injection E as <- <-. rewrite shown_single, Nat.eqb_refl, C, app_nil_r. repeat split; auto. }
    unfold put in H. destruct (o_sync o) eqn:S.
    - destruct W as [[Ho He] | [(Hs & Hs' & He & s & Ho) | (Hs & Hs' & [s Ho] & [s' He])]]; rewrite Ho, He in H.
      + apply D; [destruct (err && negb (o_same o)); exact H |].
        unfold content. rewrite Ho, He. destruct (c_same cfg), d; reflexivity.
      + rewrite Hs' in H. cbn in H. rewrite andb_false_r in H. injection H as <- <-. cbn.
        split; [right; left; cbn; eauto|]. split; [reflexivity|]. unfold content. cbn. rewrite Hs, Ho.
        split; [|split; [discriminate | constructor]].
        unfold bytes. cbn. rewrite app_nil_r. reflexivity.
      + rewrite Hs' in H. cbn in H. rewrite andb_true_r in H. destruct err; injection H as <- <-; cbn;
          (split; [right; right; cbn; split; [exact Hs|]; split; [reflexivity|]; eauto|]); (split; [reflexivity|]); unfold content, bytes; cbn; rewrite Hs, Ho, He; cbn;
          (split; [|split; [discriminate | constructor]]); destruct d; cbn; rewrite ?app_nil_r; reflexivity.
    - apply D; auto.
  Qed.

  Lemma start_spec : forall m o tr o' tr' es, wfo o -> output_start cfg m o tr = (o', tr', es) ->
    wfo o' /\ o_sync o' = o_sync o /\ (forall d, content d o' = content d o) /\
    Forall (fun e => e_make e = m /\ e_dump e = false /\ e_kid e = None) es.
  Proof.
    intros m o tr o' tr' es W H. unfold output_start in H.
    set (o1 := if o_sync o && negb (is_set o) then setup_tmpfile cfg o else o) in *.
    assert (A : wfo o1 /\ o_sync o1 = o_sync o /\ (forall d, content d o1 = content d o)).
    { subst o1. destruct (o_sync o && negb (is_set o)) eqn:E; [|auto]. apply andb_true_iff in E. destruct E as [_ E].
      assert (N : o_out o = None /\ o_err o = None). { unfold is_set in E. destruct (o_out o), (o_err o); try discriminate; auto. }
      destruct N as [N1 N2]. unfold setup_tmpfile, wfo, content. destruct (c_same cfg) eqn:Q; cbn; rewrite ?N1, ?N2.
      - split; [right; left; eauto|]. split; auto.
      - split; [right; right; split; auto; split; auto; eauto|]. split; auto. intros []; reflexivity. }
    destruct A as (A1 & A2 & A3).
    destruct (_ && _ && _) in H; injection H as <- <- <-; repeat split; auto.
  Qed.

  Lemma good_set : forall m M c k tr q, good m M -> task_kid M <> Some c -> wfo (k_out k) ->
    (o_sync (k_out k) = false \/ k_done k = true -> forall d, content d (k_out k) = []) ->
    good m (mkmake (upd (m_kids M) c (Some k)) tr (m_task M) q).
  Proof.
    intros m M c k tr q G T W Z.
    assert (TK : forall f, task_kid (mkmake f tr (m_task M) q) = task_kid M) by reflexivity.
    constructor; cbn [m_kids m_task]; try setoid_rewrite TK.
    - intros c' k' H. unfold upd in H. destruct (c' =? c) eqn:E; [injection H as <-; auto | eapply g_wf; eauto].
    - intros c' H. destruct (g_task _ _ G c' H) as (k0 & A & B). exists k0. split; auto. rewrite upd_other; auto. congruence.
    - apply (g_pend _ _ G).
    - intros c' k' H S N d. unfold upd in H. destruct (c' =? c) eqn:E; [injection H as <-; auto | eapply g_sync; eauto].
    - intros c' k' H S d. unfold upd in H. destruct (c' =? c) eqn:E; [injection H as <-; auto | eapply g_done; eauto].
  Qed.

  Lemma waiting_set : forall m M c k tr q c' d, task_kid M <> Some c ->
    waiting m (mkmake (upd (m_kids M) c (Some k)) tr (m_task M) q) c' d = if c' =? c then content d (k_out k) else waiting m M c' d.
  Proof.
    intros m M c k tr q c' d T. unfold waiting, task_kid, kid_content in *. cbn [m_kids m_task].
    destruct (c' =? c) eqn:E.
    - apply Nat.eqb_eq in E. subst c'. rewrite upd_same.
      destruct (m_task M) as [[c1 cl | c1 cl h l]|]; auto. destruct (c1 =? c) eqn:E; auto. apply Nat.eqb_eq in E. congruence.
    - rewrite upd_other by (apply Nat.eqb_neq; exact E). reflexivity.
  Qed.
  Lemma waiting_kid : forall m M c d k, task_kid M <> Some c -> m_kids M c = Some k -> waiting m M c d = content d (k_out k).
  Proof.
    intros m M c d k T H. unfold waiting, task_kid, kid_content in *. rewrite H.
    destruct (m_task M) as [[c1 cl | c1 cl h l]|]; auto. destruct (c1 =? c) eqn:E; auto. apply Nat.eqb_eq in E. congruence.
  Qed.

  Lemma live_some : forall M c k, live M c = Some k -> m_kids M c = Some k /\ k_done k = false.
  Proof.
    intros M c k H. unfold live in H. destruct (m_kids M c) as [k0|]; try discriminate. destruct (k_done k0) eqn:D; [discriminate|]. injection H as <-. auto.
  Qed.
  Lemma at_rest_some : forall M c k, at_rest M c = Some k -> m_kids M c = Some k /\ k_done k = false /\ k_runs k = false /\ m_task M = None.
  Proof.
    intros M c k H. unfold at_rest, idle in H. destruct (live M c) as [k0|] eqn:L; try discriminate. apply live_some in L.
    destruct (m_task M); try discriminate. destruct (negb (m_quit M) && negb (k_runs k0)) eqn:R; try discriminate. injection H as <-.
    apply andb_true_iff in R. destruct R as [_ R]. apply negb_true_iff in R. tauto.
  Qed.
  Lemma task_none : forall M c, m_task M = None -> task_kid M <> Some c.
  Proof. intros M c H. unfold task_kid. rewrite H. discriminate. Qed.

  (** The start of a dump of [c]. *)
  Lemma begin_good : forall m M c k cl, good m M -> m_task M = None -> wfo (k_out k) -> k_runs k = false -> k_done k = false ->
    good m (begin_dump cfg M c k cl) /\
    (forall c' d, waiting m (begin_dump cfg M c k cl) c' d = if c' =? c then content d (k_out k) else waiting m M c' d).
  Proof.
    intros m M c k cl G T W R D. unfold begin_dump. destruct (some_output (k_out k)) eqn:S.
    - split.
      + constructor; unfold set_task, set_kid; cbn [m_kids m_task task_kid].
        * intros c' k' H. unfold upd in H. destruct (c' =? c) eqn:E; [injection H as <-; auto | eapply g_wf; eauto].
        * intros c' H. injection H as <-. exists k. rewrite upd_same. auto.
        * intros; discriminate.
        * intros c' k' H Q N d. unfold upd in H. destruct (c' =? c) eqn:E; [apply Nat.eqb_eq in E; congruence |].
          eapply g_sync; eauto. apply task_none; auto.
        * intros c' k' H Q d. unfold upd in H. destruct (c' =? c) eqn:E; [congruence |]. eapply g_done; eauto.
      + intros c' d. unfold waiting, kid_content, set_task, set_kid; cbn [m_kids m_task]. rewrite T. unfold upd. destruct (c' =? c); reflexivity.
    - assert (C : forall d, content d (k_out (if cl then closed cfg k else k)) = []).
      { intros d. destruct cl; [apply content_init | apply some_output_false; auto]. }
      split.
      + unfold set_kid. apply good_set; auto using task_none. destruct cl; [apply wfo_init | auto].
      + intros c' d. unfold set_kid. rewrite waiting_set by (apply task_none; auto). rewrite C, (some_output_false _ S). reflexivity.
  Qed.

  Definition fits (m : nat) (M : make) (e : event) (M' : make) (es : list entry) : Prop :=
    good m M' /\ Forall (fun x => e_make x = m) es /\ forall c d, waiting m M c d ++ bytes (c_same cfg) d (said [(m, e)] m c) = bytes (c_same cfg) d (shown es m c) ++ waiting m M' c d.

  Lemma pump_entries : forall m c err f, Forall (fun e => e_make e = m /\ e_dump e = true /\ (e_kid e = None \/ e_kid e = Some c)) (pump cfg m c err f).
  Proof.
    intros m c err [s|]; cbn; auto. apply Forall_forall. intros x H. apply in_map_iff in H. destruct H as (t & <- & _). cbn. auto.
  Qed.
  Lemma dump_all : forall m c o, Forall (fun e => e_make e = m /\ e_dump e = true /\ (e_kid e = None \/ e_kid e = Some c)) (dump_entries cfg m c o).
  Proof.
    intros m c o. unfold dump_entries. repeat (apply Forall_app; split); try apply pump_entries; destruct (_ && _); auto.
  Qed.

  Lemma said_quiet : forall m e c, (forall c' err t, e <> Say c' err t /\ e <> Write c' err t) -> said [(m, e)] m c = [].
  Proof.
    intros m e c H. unfold said. cbn. rewrite app_nil_r. destruct e as [| |c' err t| |c' err t| | | | | | |]; auto; destruct (H c' err t); congruence.
  Qed.

  Lemma act_fits : forall m M e M' es, good m M -> act m M e = Some (M', es) -> fits m M e M' es.
  Proof.
    intros m M e M' es G H. unfold fits.
    destruct e as [c | c r | c err t | c | c err t | c | c | c | ok | | |]; cbn [M_Output.act] in H.
    - (* New *)
      destruct (m_kids M c) eqn:K; try discriminate. unfold idle in H. destruct (m_task M) eqn:T; try discriminate.
      destruct (negb (m_quit M)); try discriminate. injection H as <- <-. unfold set_kid. split; [|split; auto].
      + apply good_set; auto using task_none, wfo_init. cbn. intros _. apply content_init.
      + intros c' d. rewrite said_quiet by (intros; split; discriminate). rewrite waiting_set by auto using task_none. cbn. rewrite app_nil_r.
        destruct (c' =? c) eqn:E; auto. apply Nat.eqb_eq in E. subst c'. rewrite content_init. unfold waiting, kid_content. rewrite T, K. reflexivity.
    - (* Start *)
      destruct (at_rest M c) as [k|] eqn:A; try discriminate. apply at_rest_some in A. destruct A as (K & D & R & T).
      set (sync := _ && _) in H. injection H as <- <-. 
      assert (W : wfo (mkoutput (o_out (k_out k)) (o_err (k_out k)) (o_same (k_out k)) sync)).
      { pose proof (g_wf _ _ G _ _ K) as W. unfold wfo in *. cbn. exact W. }
      assert (C : forall d, content d (mkoutput (o_out (k_out k)) (o_err (k_out k)) (o_same (k_out k)) sync) = waiting m M c d).
      { intros d. rewrite (waiting_kid m M c d k) by auto using task_none. reflexivity. }
      destruct sync eqn:S.
      + unfold set_kid. split; [|split; auto].
        * apply good_set; auto using task_none. cbn. intros [?|?]; discriminate.
        * intros c' d. rewrite said_quiet by (intros; split; discriminate). rewrite waiting_set by auto using task_none. cbn [k_out]. rewrite C.
          cbn. rewrite app_nil_r. destruct (c' =? c) eqn:E; auto. apply Nat.eqb_eq in E. subst. reflexivity.
      + edestruct (begin_good m M c (mkkid _ false true false) false G T W eq_refl eq_refl) as [B1 B2]. split; [exact B1|]. split; auto.
        intros c' d. rewrite said_quiet by (intros; split; discriminate). rewrite B2. cbn [k_out]. rewrite C. cbn. rewrite app_nil_r.
        destruct (c' =? c) eqn:E; auto. apply Nat.eqb_eq in E. subst. reflexivity.
    - (* Say *)
      destruct (at_rest M c) as [k|] eqn:A; try discriminate. apply at_rest_some in A. destruct A as (K & D & R & T).
      destruct t as [| a t]; try discriminate. remember (a :: t) as txt eqn:TX. clear TX.
      destruct (output_start cfg m (k_out k) (m_traced M)) as [[o1 tr] es1] eqn:O.
      destruct (put m c o1 err txt) as [o2 es2] eqn:P. injection H as <- <-.
      destruct (start_spec _ _ _ _ _ _ (g_wf _ _ G _ _ K) O) as (W1 & S1 & C1 & E1).
      assert (Z1 : forall d, o_sync o1 = false -> content d o1 = []).
      { intros d Hs. rewrite C1. apply (g_sync _ _ G _ _ K); [congruence | auto using task_none]. }
      assert (Q := fun d => put_spec _ _ _ _ _ _ _ d W1 (Z1 d) P).
      destruct (Q false) as (W2 & S2 & _ & _ & E2). split; [|split].
      + unfold set_kid. cbn [m_kids m_task m_traced m_quit]. apply good_set; auto using task_none. cbn. intros [Hs|?]; [|discriminate].
        intros d. apply Q. congruence.
      + apply Forall_app. split; [eapply Forall_impl; [|exact E1] | eapply Forall_impl; [|exact E2]]; cbn; tauto.
      + intros c' d. unfold set_kid. cbn [m_kids m_task m_traced m_quit]. rewrite waiting_set by auto using task_none. cbn [k_out].
        rewrite shown_app, bytes_app. rewrite (shown_none es1) by (eapply Forall_impl; [|exact E1]; cbn; intros x (_ & _ & X); unfold of_kid; rewrite X; apply andb_false_r).
        unfold said. cbn. rewrite Nat.eqb_refl, app_nil_r. cbn. rewrite (Nat.eqb_sym c c'). destruct (c' =? c) eqn:E.
        * apply Nat.eqb_eq in E. subst c'. rewrite (waiting_kid m M c d k) by auto using task_none. destruct (Q d) as (_ & _ & Q3 & _).
          rewrite <- C1. symmetry. exact Q3.
        * cbn. rewrite app_nil_r. rewrite shown_none; [reflexivity|]. eapply Forall_impl; [|exact E2]. cbn. intros x (X & _ & Y). unfold of_kid. rewrite Y.
          rewrite (Nat.eqb_sym c c'), E. apply andb_false_r.
    - (* Run *)
      destruct (at_rest M c) as [k|] eqn:A; try discriminate. apply at_rest_some in A. destruct A as (K & D & R & T).
      destruct (k_ready k); try discriminate.
      destruct (output_start cfg m (k_out k) (m_traced M)) as [[o1 tr] es1] eqn:O. injection H as <- <-.
      destruct (start_spec _ _ _ _ _ _ (g_wf _ _ G _ _ K) O) as (W1 & S1 & C1 & E1). unfold set_kid. cbn [m_kids m_task m_traced m_quit].
      split; [|split].
      + apply good_set; auto using task_none. cbn. intros [Hs|?]; [|discriminate]. intros d. rewrite C1. apply (g_sync _ _ G _ _ K); [congruence | auto using task_none].
      + eapply Forall_impl; [|exact E1]. cbn. tauto.
      + intros c' d. rewrite said_quiet by (intros; split; discriminate). rewrite waiting_set by auto using task_none. cbn [k_out]. rewrite C1.
        rewrite shown_none by (eapply Forall_impl; [|exact E1]; cbn; intros x (_ & _ & X); unfold of_kid; rewrite X; apply andb_false_r).
        cbn. rewrite app_nil_r. destruct (c' =? c) eqn:E; auto. apply Nat.eqb_eq in E. subst. apply waiting_kid; auto using task_none.
    - (* Write *)
      destruct (live M c) as [k|] eqn:A; try discriminate. apply live_some in A. destruct A as (K & D).
      destruct (k_runs k) eqn:R; try discriminate. destruct (put m c (k_out k) err t) as [o2 es2] eqn:P. injection H as <- <-.
      assert (T : task_kid M <> Some c).
      { intros T. destruct (g_task _ _ G _ T) as (k0 & K0 & R0 & _). congruence. }
      assert (Q := fun d => put_spec _ _ _ _ _ _ _ d (g_wf _ _ G _ _ K) (fun Hs => g_sync _ _ G _ _ K Hs T d) P).
      destruct (Q false) as (W2 & S2 & _ & _ & E2). split; [|split].
      + unfold set_kid. apply good_set; auto. cbn. intros [Hs|?]; [|discriminate]. intros d. apply Q. congruence.
      + eapply Forall_impl; [|exact E2]; cbn; tauto.
      + intros c' d. unfold set_kid. rewrite waiting_set by auto. cbn [k_out].
        unfold said. cbn. rewrite Nat.eqb_refl, app_nil_r. cbn. rewrite (Nat.eqb_sym c c'). destruct (c' =? c) eqn:E.
        * apply Nat.eqb_eq in E. subst c'. rewrite (waiting_kid m M c d k) by auto. destruct (Q d) as (_ & _ & Q3 & _). symmetry. exact Q3.
        * cbn. rewrite app_nil_r. rewrite shown_none; [reflexivity|]. eapply Forall_impl; [|exact E2]. cbn. intros x (X & _ & Y). unfold of_kid. rewrite Y.
          rewrite (Nat.eqb_sym c c'), E. apply andb_false_r.
    - (* Exit *)
      destruct (live M c) as [k|] eqn:A; try discriminate. apply live_some in A. destruct A as (K & D).
      destruct (k_runs k) eqn:R; try discriminate. injection H as <- <-.
      assert (T : task_kid M <> Some c).
      { intros T. destruct (g_task _ _ G _ T) as (k0 & K0 & R0 & _). congruence. }
      unfold set_kid. split; [|split; auto].
      + apply good_set; auto. { cbn. eapply g_wf; eauto. } cbn. intros [Hs|?]; [|discriminate]. apply (g_sync _ _ G _ _ K); auto.
      + intros c' d. rewrite said_quiet by (intros; split; discriminate). rewrite waiting_set by auto. cbn. rewrite app_nil_r.
        destruct (c' =? c) eqn:E; auto. apply Nat.eqb_eq in E. subst. apply waiting_kid; auto.
    - (* Next *)
      destruct (at_rest M c) as [k|] eqn:A; try discriminate. apply at_rest_some in A. destruct A as (K & D & R & T).
      assert (Same : Some (M, []) = Some (M', es) -> good m M' /\ Forall (fun x => e_make x = m) es /\
        (forall c d, waiting m M c d ++ bytes (c_same cfg) d (said [(m, Next c)] m c) = bytes (c_same cfg) d (shown es m c) ++ waiting m M' c d)).
      { intros E. injection E as <- <-. split; auto. split; auto. intros c' d. rewrite said_quiet by (intros; split; discriminate). cbn. apply app_nil_r. }
      destruct (c_mode cfg); try (exact (Same H)). injection H as <- <-.
      destruct (begin_good m M c k false G T (g_wf _ _ G _ _ K) R D) as [B1 B2]. split; [exact B1|]. split; auto.
      intros c' d. rewrite said_quiet by (intros; split; discriminate). rewrite B2. cbn. rewrite app_nil_r.
      destruct (c' =? c) eqn:E; auto. apply Nat.eqb_eq in E. subst. apply waiting_kid; auto using task_none.
    - (* Finish *)
      destruct (at_rest M c) as [k|] eqn:A; try discriminate. apply at_rest_some in A. destruct A as (K & D & R & T). injection H as <- <-.
      destruct (begin_good m M c k true G T (g_wf _ _ G _ _ K) R D) as [B1 B2]. split; [exact B1|]. split; auto.
      intros c' d. rewrite said_quiet by (intros; split; discriminate). rewrite B2. cbn. rewrite app_nil_r.
      destruct (c' =? c) eqn:E; auto. apply Nat.eqb_eq in E. subst. apply waiting_kid; auto using task_none.
    - (* Acquire *)
      destruct (m_task M) as [[c cl | ]|] eqn:T; try discriminate. destruct (m_kids M c) as [k|] eqn:K; try discriminate. injection H as <- <-.
      assert (TK : task_kid M = Some c) by (unfold task_kid; rewrite T; reflexivity). split; [|split; auto].
      + constructor; unfold set_task; cbn [m_kids m_task task_kid].
        * apply (g_wf _ _ G).
        * intros c' H. injection H as <-. apply (g_task _ _ G). exact TK.
        * intros c' cl' h l H. injection H as <- <- <- <-. apply dump_all.
        * intros c' k' H Q N. apply (g_sync _ _ G _ _ H Q). congruence.
        * apply (g_done _ _ G).
      + intros c' d. rewrite said_quiet by (intros; split; discriminate). cbn. rewrite app_nil_r. unfold waiting, set_task, kid_content. cbn [m_task m_kids]. rewrite T.
        destruct (c =? c') eqn:E; auto. apply Nat.eqb_eq in E. subst c'. rewrite K. symmetry. apply dump_bytes. eapply g_wf; eauto.
    - (* Pump *)
      destruct (m_task M) as [[c cl | c cl h [|x l]]|] eqn:T; try discriminate. injection H as <- <-.
      assert (TK : task_kid M = Some c) by (unfold task_kid; rewrite T; reflexivity).
      pose proof (g_pend _ _ G _ _ _ _ T) as P. inversion P as [| x' l' P1 P2]; subst. split; [|split].
      + constructor; unfold set_task; cbn [m_kids m_task task_kid].
        * apply (g_wf _ _ G).
        * intros c' H. injection H as <-. apply (g_task _ _ G). exact TK.
        * intros c' cl' h' l' H. injection H as <- <- <- <-. exact P2.
        * intros c' k' H Q N. apply (g_sync _ _ G _ _ H Q). congruence.
        * apply (g_done _ _ G).
      + constructor; [tauto | auto].
      + intros c' d. rewrite said_quiet by (intros; split; discriminate). cbn [bytes filter map concat]. rewrite app_nil_r.
        unfold waiting, set_task, kid_content. cbn [m_task m_kids]. rewrite T. destruct (c =? c') eqn:E.
        * apply Nat.eqb_eq in E. subst c'. change (x :: l) with ([x] ++ l). rewrite shown_app, bytes_app. reflexivity.
        * rewrite (shown_none [x]); [reflexivity|]. constructor; auto. unfold of_kid. destruct P1 as (_ & _ & [X | X]); rewrite X; [apply andb_false_r|]. rewrite E. apply andb_false_r.
    - (* Release *)
      destruct (m_task M) as [[c cl | c cl h [|x l]]|] eqn:T; try discriminate. destruct (m_kids M c) as [k|] eqn:K; try discriminate. injection H as <- <-.
      assert (TK : task_kid M = Some c) by (unfold task_kid; rewrite T; reflexivity).
      set (k1 := if cl then _ else _).
      assert (C : forall d, content d (k_out k1) = []). { intros d. subst k1. destruct cl; [apply content_init | apply content_truncated]. }
      assert (W : wfo (k_out k1)). { subst k1. destruct cl; [apply wfo_init | apply wfo_truncated; eapply g_wf; eauto]. }
      split; [|split; auto].
      + constructor; unfold set_task, set_kid; cbn [m_kids m_task task_kid].
        * intros c' k' H. unfold upd in H. destruct (c' =? c) eqn:E; [injection H as <-; auto | eapply g_wf; eauto].
        * intros; discriminate.
        * intros; discriminate.
        * intros c' k' H Q N d. unfold upd in H. destruct (c' =? c) eqn:E; [injection H as <-; auto |]. apply Nat.eqb_neq in E.
          apply (g_sync _ _ G _ _ H Q). congruence.
        * intros c' k' H Q d. unfold upd in H. destruct (c' =? c) eqn:E; [injection H as <-; auto |]. eapply g_done; eauto.
      + intros c' d. rewrite said_quiet by (intros; split; discriminate). cbn [bytes filter map concat shown flat_map app]. rewrite app_nil_r.
        unfold waiting, set_task, set_kid, kid_content. cbn [m_task m_kids]. rewrite T. unfold upd. rewrite (Nat.eqb_sym c c').
        destruct (c' =? c) eqn:E; rewrite ?C; reflexivity.
    - (* Quit *)
      unfold idle in H. destruct (m_task M) eqn:T; try discriminate. destruct (negb (m_quit M)); try discriminate. injection H as <- <-.
      assert (TK : forall c, task_kid M <> Some c) by (intros; apply task_none; auto). split; [|split].
      + constructor; cbn [m_kids m_task task_kid]; try (intros; discriminate).
        * apply (g_wf _ _ G).
        * intros c' k' H Q N. apply (g_sync _ _ G _ _ H Q). auto.
        * apply (g_done _ _ G).
      + destruct (m_traced M); auto.
      + intros c' d. rewrite said_quiet by (intros; split; discriminate). cbn [bytes filter map concat]. rewrite app_nil_r.
        assert (Z : shown (if m_traced M then [mkentry m None false Leave] else []) m c' = []) by (destruct (m_traced M); reflexivity).
        rewrite Z. unfold waiting, kid_content. cbn [m_task m_kids]. rewrite T. reflexivity.
  Qed.

  Lemma good_init : forall m, good m (s_makes init m).
  Proof. intros m. constructor; cbn; try discriminate. Qed.

  (** The whole of a run. *)
  Theorem run_kept : forall es st, run init es = Some st -> forall m, good m (s_makes st m) /\
    forall c d, bytes (c_same cfg) d (said es m c) = bytes (c_same cfg) d (shown (s_term st) m c) ++ waiting m (s_makes st m) c d.
  Proof.
    induction es as [| [m0 e] es IH] using rev_ind; intros st H m.
    - injection H as <-. split; [apply good_init | reflexivity].
    - apply run_snoc in H. destruct H as (st1 & R & S). apply step_inv in S. destruct S as (M' & en & A & SM & ST & _).
      destruct (IH _ R m) as [G Q]. destruct (IH _ R m0) as [G0 _].
      destruct (act_fits _ _ _ _ _ G0 A) as (G' & F & W). rewrite SM, ST. destruct (Nat.eq_dec m m0) as [->|N].
      + rewrite upd_same. split; auto. intros c d. rewrite said_app, shown_app, !bytes_app, Q, <- !app_assoc. f_equal. apply W.
      + rewrite upd_other by auto. split; auto. intros c d. rewrite said_app, shown_app, !bytes_app, Q.
        rewrite (shown_other en) by (eapply Forall_impl; [|exact F]; cbn; congruence).
        assert (Z : said [(m0, e)] m c = []). { unfold said. cbn. apply not_eq_sym, Nat.eqb_neq in N. rewrite N. cbn. destruct e; reflexivity. }
        rewrite Z. cbn. rewrite !app_nil_r. reflexivity.
  Qed.
End Proofs.
