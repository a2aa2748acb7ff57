(** Blocks of output: with the lock, one after the other. *)
From Verif Require Import Base M_Output S_Output P_Output P_Output2.
Open Scope list_scope.
Open Scope nat_scope.

Section Proofs.
  Variable cfg : config.
  Local Notation act := (act cfg).
  Local Notation step := (step cfg).
  Local Notation run := (run cfg).
  Local Notation held := (held_back cfg).
  Local Notation dir := (directory cfg).

  Definition tag := (nat * nat)%type.
  Record cut (es : list (nat * event)) (st : state) (bs : list (tag * list entry)) (part : list entry) : Prop := {
    x_term : filter e_dump (s_term st) = concat (map snd bs) ++ part;
    x_rel : map (fun b => fst (fst b)) bs = releases es;
    x_blocks : Forall (fun b => block dir (fst (fst b)) (snd (fst b)) (snd b)) bs;
    x_pump : forall m c cl h l, m_task (s_makes st m) = Some (T_pump c cl h l) -> h = true /\ s_lock st = Some m;
    x_lock : forall m, s_lock st = Some m -> exists c cl l, m_task (s_makes st m) = Some (T_pump c cl true l) /\ block dir m c (part ++ l);
    x_free : s_lock st = None -> part = [];
    x_tags : forall m c, held es m c -> (forall k, m_kids (s_makes st m) c = Some k -> k_done k = false) -> ~ In (m, c) (map fst bs);
    x_once : forall m c, held es m c -> length (filter (fun b => (fst (fst b) =? m) && (snd (fst b) =? c)) bs) <= 1 }.

  Lemma dump_block : forall m c o, some_output o = true -> block dir m c (dump_entries cfg m c o).
  Proof.
    intros m c o S.
    replace (dump_entries cfg m c o) with
      ((if dir then [mkentry m None true Enter] else [])
       ++ map (text_for m c false) (match o_out o with Some s => buffers cfg (length s) s | None => [] end)
       ++ map (text_for m c true) (match o_err o with Some s => buffers cfg (length s) s | None => [] end)
       ++ (if dir then [mkentry m None true Leave] else [])).
    - constructor. unfold some_output in S. apply orb_true_iff in S. destruct S as [S|S]; [left | right].
      + destruct (o_out o) as [[| a s]|]; try discriminate.
      + destruct (o_err o) as [[| a s]|]; try discriminate.
    - unfold dump_entries, pump, directory, per_dump. destruct (o_out o), (o_err o); reflexivity.
  Qed.

  Lemma block_kid : forall m c b, block dir m c b -> Forall (fun e => e_make e = m /\ (e_kid e = None \/ e_kid e = Some c)) b.
  Proof.
    intros m c b [outs errs _]. repeat (apply Forall_app; split).
    - destruct dir; repeat constructor.
    - apply Forall_forall. intros x H. apply in_map_iff in H. destruct H as (t & <- & _). cbn. auto.
    - apply Forall_forall. intros x H. apply in_map_iff in H. destruct H as (t & <- & _). cbn. auto.
    - destruct dir; repeat constructor.
  Qed.

  (** Entries that are not of dumps do not matter. *)
  Lemma filter_none : forall l, Forall (fun e => e_dump e = false) l -> filter e_dump l = [].
  Proof. induction 1 as [| x l H _ IH]; auto. cbn. rewrite H. exact IH. Qed.

  (** What an event of make m other than the three of a dump does. *)
  Lemma act_plain : forall m M e M' en, good cfg m M -> act m M e = Some (M', en) ->
    e <> Pump -> e <> Release -> (forall ok, e <> Acquire ok) ->
    Forall (fun x => e_dump x = false) en /\
    (forall c cl h l, m_task M' = Some (T_pump c cl h l) <-> m_task M = Some (T_pump c cl h l)) /\
    (forall c, (forall k, m_kids M' c = Some k -> k_done k = false) -> forall k, m_kids M c = Some k -> k_done k = false).
  Proof.
    intros m M e M' en G H N1 N2 N3.
    assert (B : forall c k cl, m_task M = None -> m_kids M c = Some k -> forall k', k_done k' = false ->
      (forall c0 cl0 h l, m_task (begin_dump cfg M c k' cl) = Some (T_pump c0 cl0 h l) <-> m_task M = Some (T_pump c0 cl0 h l)) /\
      (k_done k = false -> forall c0, (forall k0, m_kids (begin_dump cfg M c k' cl) c0 = Some k0 -> k_done k0 = false) -> forall k0, m_kids M c0 = Some k0 -> k_done k0 = false)).
    { intros c k cl T K k' D'. unfold begin_dump. destruct (some_output (k_out k')); unfold set_task, set_kid; cbn [m_task m_kids]; rewrite ?T.
      - split; [intros; split; discriminate|]. intros D c0 X k0 K0. destruct (Nat.eq_dec c0 c) as [->|N]; [congruence|]. apply X. rewrite upd_other; auto.
      - split; [intros; split; discriminate|]. intros D c0 X k0 K0. destruct (Nat.eq_dec c0 c) as [->|N]; [congruence|]. apply X. rewrite upd_other; auto. }
    assert (U : forall c k k' tr q, m_kids M c = Some k -> k_done k = false ->
      (forall c0 cl0 h l, m_task (mkmake (upd (m_kids M) c (Some k')) tr (m_task M) q) = Some (T_pump c0 cl0 h l) <-> m_task M = Some (T_pump c0 cl0 h l)) /\
      (forall c0, (forall k0, m_kids (mkmake (upd (m_kids M) c (Some k')) tr (m_task M) q) c0 = Some k0 -> k_done k0 = false) -> forall k0, m_kids M c0 = Some k0 -> k_done k0 = false)).
    { intros c k k' tr q K D. cbn [m_task m_kids]. split; [tauto|]. intros c0 X k0 K0. destruct (Nat.eq_dec c0 c) as [->|N]; [congruence|]. apply X. rewrite upd_other; auto. }
    destruct e as [c | c r | c err t | c | c err t | c | c | c | ok | | |]; cbn [M_Output.act] in H; try congruence.
    - destruct (m_kids M c) eqn:K; try discriminate. destruct (idle M); try discriminate. injection H as <- <-. split; auto. unfold set_kid. cbn [m_task m_kids].
      split; [tauto|]. intros c0 X k0 K0. apply X. rewrite upd_other; auto. congruence.
    - destruct (at_rest M c) as [k|] eqn:A; try discriminate. apply at_rest_some in A. destruct A as (K & D & R & T).
      injection H as <- <-. split; auto. destruct (_ && _); [apply (U c k); auto|]. match goal with |- context [begin_dump cfg M c ?k1 false] => destruct (B c k false T K k1 eq_refl) as [B1 B2] end. split; [exact B1 | exact (B2 D)].
    - destruct (at_rest M c) as [k|] eqn:A; try discriminate. apply at_rest_some in A. destruct A as (K & D & R & T).
      destruct t as [| a t]; try discriminate. remember (a :: t) as txt eqn:TX. clear TX.
      destruct (output_start cfg m (k_out k) (m_traced M)) as [[o1 tr] es1] eqn:O.
      destruct (put m c o1 err txt) as [o2 es2] eqn:P. injection H as <- <-.
      destruct (start_spec _ _ _ _ _ _ _ (g_wf _ _ _ G _ _ K) O) as (W1 & S1 & C1 & E1). split; [|apply (U c k); auto].
      apply Forall_app. split; [eapply Forall_impl; [|exact E1]; cbn; tauto|].
      unfold put in P. destruct (o_sync o1), (err && negb (o_same o1)), (o_out o1), (o_err o1); injection P as <- <-; auto.
    - destruct (at_rest M c) as [k|] eqn:A; try discriminate. apply at_rest_some in A. destruct A as (K & D & R & T).
      destruct (k_ready k); try discriminate.
      destruct (output_start cfg m (k_out k) (m_traced M)) as [[o1 tr] es1] eqn:O. injection H as <- <-.
      destruct (start_spec _ _ _ _ _ _ _ (g_wf _ _ _ G _ _ K) O) as (W1 & S1 & C1 & E1). split; [|apply (U c k); auto].
      eapply Forall_impl; [|exact E1]; cbn; tauto.
    - destruct (live M c) as [k|] eqn:A; try discriminate. apply live_some in A. destruct A as (K & D).
      destruct (k_runs k) eqn:R; try discriminate. destruct (put m c (k_out k) err t) as [o2 es2] eqn:P. injection H as <- <-. split; [|apply (U c k); auto].
      unfold put in P. destruct (o_sync (k_out k)), (err && negb (o_same (k_out k))), (o_out (k_out k)), (o_err (k_out k)); injection P as <- <-; auto.
    - destruct (live M c) as [k|] eqn:A; try discriminate. apply live_some in A. destruct A as (K & D).
      destruct (k_runs k) eqn:R; try discriminate. injection H as <- <-. split; auto. apply (U c k); auto.
    - destruct (at_rest M c) as [k|] eqn:A; try discriminate. apply at_rest_some in A. destruct A as (K & D & R & T).
      destruct (B c k false T K k D) as [B1 B2]. destruct (c_mode cfg); injection H as <- <-; (split; [auto|]); first [split; [exact B1 | exact (B2 D)] | split; [tauto | auto]].
    - destruct (at_rest M c) as [k|] eqn:A; try discriminate. apply at_rest_some in A. destruct A as (K & D & R & T).
      destruct (B c k true T K k D) as [B1 B2]. injection H as <- <-. split; [auto|]. split; [exact B1 | exact (B2 D)].
    - unfold idle in H. destruct (m_task M) eqn:T; try discriminate. destruct (negb (m_quit M)); try discriminate. injection H as <- <-. split.
      + destruct (m_traced M); auto.
      + cbn. split; [tauto | auto].
  Qed.

  Lemma rel_app : forall a b, releases (a ++ b) = releases a ++ releases b.
  Proof. intros. unfold releases. apply flat_map_app. Qed.
  Lemma rel_other : forall es m e, e <> Release -> releases (es ++ [(m, e)]) = releases es.
  Proof. intros es m e N. rewrite rel_app. destruct e; try apply app_nil_r. congruence. Qed.

  Lemma cut_dumps : forall bs, Forall (fun b : tag * list entry => block dir (fst (fst b)) (snd (fst b)) (snd b)) bs -> dumps dir (map (fun b => fst (fst b)) bs) (concat (map snd bs)).
  Proof.
    induction bs as [| [[m c] b] bs IH] using rev_ind; intros F; [constructor|]. apply Forall_app in F. destruct F as [F1 F2]. inversion F2; subst. cbn in *.
    rewrite !map_app, concat_app. cbn. rewrite app_nil_r. econstructor; eauto.
  Qed.

  Theorem run_cut : forall es st, run init es = Some st -> locks es -> exists bs part, cut es st bs part.
  Proof.
    induction es as [| [m e] es IH] using rev_ind; intros st H L.
    - injection H as <-. exists [], []. constructor; cbn; auto; try discriminate.
    - apply run_snoc in H. destruct H as (st1 & R & S). apply step_inv in S. destruct S as (M' & en & A & SM & ST & SL).
      assert (L1 : locks es) by (intros m1 I; apply (L m1), in_or_app; auto).
      destruct (IH _ R L1) as (bs & part & X). destruct (run_kept cfg _ _ R m) as [G _].
      destruct (run_fine cfg _ _ R m) as [F _].
      destruct (act_fits _ _ _ _ _ _ G A) as (_ & EM & _).
      assert (PL : e <> Pump -> e <> Release -> (forall ok, e <> Acquire ok) -> exists bs part, cut (es ++ [(m, e)]) st bs part).
      { intros N1 N2 N3. destruct (act_plain _ _ _ _ _ G A N1 N2 N3) as (E1 & E2 & E3).
        assert (LK : s_lock st = s_lock st1) by (destruct e as [| | | | | | | |ok| | |]; cbn in SL; try congruence; destruct (N3 ok eq_refl)).
        exists bs, part. constructor; rewrite ?SM, ?ST, ?LK.
        - rewrite filter_app, (filter_none en), app_nil_r by auto. apply (x_term _ _ _ _ X).
        - rewrite rel_other by auto. apply (x_rel _ _ _ _ X).
        - apply (x_blocks _ _ _ _ X).
        - intros m1 c cl h l. destruct (Nat.eq_dec m1 m) as [->|N]; [rewrite upd_same, E2 | rewrite upd_other by auto]; apply (x_pump _ _ _ _ X).
        - intros m1 H1. destruct (x_lock _ _ _ _ X m1 H1) as (c & cl & l & T & B). exists c, cl, l. split; auto.
          destruct (Nat.eq_dec m1 m) as [->|N]; [rewrite upd_same; apply E2; auto | rewrite upd_other by auto; auto].
        - apply (x_free _ _ _ _ X).
        - intros m1 c HH K. apply (x_tags _ _ _ _ X); eauto using held_app. destruct (Nat.eq_dec m1 m) as [->|N]; [rewrite upd_same in K; eauto | rewrite upd_other in K by auto; auto].
        - intros m1 c HH. apply (x_once _ _ _ _ X); eauto using held_app. }
      destruct e as [| | | | | | | |ok| | |]; try (apply PL; discriminate); clear PL; cbn [M_Output.act] in A.
      + (* Acquire *)
        destruct ok; [|destruct (L m); apply in_or_app; right; left; reflexivity].
        cbn in SL. destruct (s_lock st1) as [|] eqn:L0; try discriminate. injection SL as SL.
        destruct (m_task (s_makes st1 m)) as [[c cl|]|] eqn:T; try discriminate. destruct (m_kids (s_makes st1 m) c) as [k|] eqn:K; try discriminate.
        injection A as <- <-. rewrite (x_free _ _ _ _ X L0) in X. exists bs, []. constructor; rewrite ?SM, ?ST, <- ?SL, ?app_nil_r.
        * rewrite (x_term _ _ _ _ X). apply app_nil_r.
        * rewrite rel_other by discriminate. apply (x_rel _ _ _ _ X).
        * apply (x_blocks _ _ _ _ X).
        * intros m1 c1 cl1 h1 l1 H1. destruct (Nat.eq_dec m1 m) as [->|N].
          -- rewrite upd_same in H1. unfold set_task in H1. cbn in H1. injection H1 as <- <- <- <-. auto.
          -- rewrite upd_other in H1 by auto. destruct (x_pump _ _ _ _ X _ _ _ _ _ H1). congruence.
        * intros m1 H1. injection H1 as <-. rewrite upd_same. unfold set_task. cbn. eexists c, cl, _. split; [reflexivity|].
          apply dump_block. eapply f_wait; eauto.
        * discriminate.
        * intros m1 c1 HH K1. apply (x_tags _ _ _ _ X); eauto using held_app. destruct (Nat.eq_dec m1 m) as [->|N]; [rewrite upd_same in K1; exact K1 | rewrite upd_other in K1 by auto; auto].
        * intros m1 c1 HH. apply (x_once _ _ _ _ X); eauto using held_app.
      + (* Pump *)
        cbn in SL. injection SL as SL.
        destruct (m_task (s_makes st1 m)) as [[c cl | c cl h [|x l]]|] eqn:T; try discriminate. injection A as <- <-.
        destruct (x_pump _ _ _ _ X _ _ _ _ _ T) as [-> LK]. destruct (x_lock _ _ _ _ X m LK) as (c0 & cl0 & l0 & T0 & B0). rewrite T in T0. injection T0 as <- <- <-.
        pose proof (g_pend _ _ _ G _ _ _ _ T) as P. inversion P as [| x' l' P1 P2]; subst.
        exists bs, (part ++ [x]). constructor; rewrite ?SM, ?ST, <- ?SL.
        * rewrite filter_app, (x_term _ _ _ _ X), <- app_assoc. cbn. destruct P1 as (_ & P1 & _). rewrite P1. reflexivity.
        * rewrite rel_other by discriminate. apply (x_rel _ _ _ _ X).
        * apply (x_blocks _ _ _ _ X).
        * intros m1 c1 cl1 h1 l1 H1. destruct (Nat.eq_dec m1 m) as [->|N].
          -- rewrite upd_same in H1. unfold set_task in H1. cbn in H1. injection H1 as <- <- <- <-. auto.
          -- rewrite upd_other in H1 by auto. eapply x_pump; eauto.
        * intros m1 H1. assert (m1 = m) by congruence. subst m1. rewrite upd_same. unfold set_task. cbn. exists c, cl, l. split; auto. rewrite <- app_assoc. exact B0.
        * congruence.
        * intros m1 c1 HH K1. apply (x_tags _ _ _ _ X); eauto using held_app. destruct (Nat.eq_dec m1 m) as [->|N]; [rewrite upd_same in K1; exact K1 | rewrite upd_other in K1 by auto; auto].
        * intros m1 c1 HH. apply (x_once _ _ _ _ X); eauto using held_app.
      + (* Release *)
        cbn in SL.
        destruct (m_task (s_makes st1 m)) as [[c cl | c cl h [|x l]]|] eqn:T; try discriminate. destruct (m_kids (s_makes st1 m) c) as [k|] eqn:K; try discriminate. injection A as <- <-.
        destruct (x_pump _ _ _ _ X _ _ _ _ _ T) as [-> LK]. injection SL as SL.
        destruct (x_lock _ _ _ _ X m LK) as (c0 & cl0 & l0 & T0 & B0). rewrite T in T0. injection T0 as <- <- <-. rewrite app_nil_r in B0.
        assert (TK : task_kid (s_makes st1 m) = Some c) by (unfold task_kid; rewrite T; reflexivity).
        destruct (g_task _ _ _ G _ TK) as (k0 & K0 & R0 & D0). rewrite K in K0. injection K0 as <-.
        exists (bs ++ [((m, c), part)]), []. constructor; rewrite ?SM, ?ST, <- ?SL, ?app_nil_r.
        * rewrite (x_term _ _ _ _ X), map_app, concat_app. cbn. rewrite app_nil_r. reflexivity.
        * rewrite map_app, rel_app. apply f_equal2; [apply (x_rel _ _ _ _ X) | reflexivity].
        * apply Forall_app. split; [apply (x_blocks _ _ _ _ X) | auto].
        * intros m1 c1 cl1 h1 l1 H1. destruct (Nat.eq_dec m1 m) as [->|N].
          -- rewrite upd_same in H1. discriminate.
          -- rewrite upd_other in H1 by auto. destruct (x_pump _ _ _ _ X _ _ _ _ _ H1). congruence.
        * discriminate.
        * auto.
        * intros m1 c1 HH K1 I. rewrite map_app in I. apply in_app_or in I. destruct I as [I|[I|[]]].
          -- revert I. apply (x_tags _ _ _ _ X); eauto using held_app. destruct (Nat.eq_dec m1 m) as [->|N]; [|rewrite upd_other in K1 by auto; auto].
             intros k1 H1. destruct (Nat.eq_dec c1 c) as [->|N]; [congruence|]. rewrite upd_same in K1. apply K1. unfold set_task, set_kid. cbn. rewrite upd_other; auto.
          -- cbn in I. injection I as <- <-. rewrite upd_same in K1. pose proof (f_held _ _ _ _ F c (held_app _ _ _ _ _ HH) TK) as C. unfold closing in C. rewrite T in C. destruct C as [_ ->].
             unfold set_task, set_kid in K1. cbn in K1. specialize (K1 _ (upd_same _ _ _)). discriminate.
        * intros m1 c1 HH. rewrite filter_app, app_length. cbn [filter fst snd]. pose proof (x_once _ _ _ _ X m1 c1 (held_app _ _ _ _ _ HH)) as O.
          destruct ((m =? m1) && (c =? c1)) eqn:E; [|cbn [length]; rewrite Nat.add_0_r; exact O]. apply andb_true_iff in E. destruct E as [E1 E2]. apply Nat.eqb_eq in E1, E2. subst m1 c1.
          match goal with |- length ?f + _ <= _ => assert (Z : f = []); [|rewrite Z; cbn; auto] end.
          match goal with |- ?f = [] => destruct f as [| b r] eqn:Fi; [reflexivity|] end. exfalso. apply (x_tags _ _ _ _ X m c (held_app _ _ _ _ _ HH)); [congruence|].
          assert (I : In b (b :: r)) by (left; auto). rewrite <- Fi in I. apply filter_In in I. destruct I as [I E]. apply andb_true_iff in E. destruct E as [E1 E2].
          apply Nat.eqb_eq in E1, E2. apply in_map_iff. exists b. split; auto. destruct b as [[? ?] ?]. cbn in *. congruence.
  Qed.
End Proofs.
