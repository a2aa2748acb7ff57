(** What is on the terminal, and when; dumps come to an end. *)
From Verif Require Import Base M_Output S_Output P_Output P_Output2 P_Output3.
Open Scope list_scope.
Open Scope nat_scope.

Section Proofs.
  Variable cfg : config.
  Local Notation act := (act cfg).
  Local Notation step := (step cfg).
  Local Notation run := (run cfg).

  Lemma all_shown : forall es st m c d, run init es = Some st -> not_dumping st m ->
    (forall k, m_kids (s_makes st m) c = Some k -> o_sync (k_out k) = false \/ k_done k = true \/ some_output (k_out k) = false) ->
    bytes (c_same cfg) d (said es m c) = bytes (c_same cfg) d (shown (s_term st) m c).
  Proof.
    intros es st m c d R N K. destruct (run_kept cfg _ _ R m) as [G Q]. rewrite Q. unfold waiting, not_dumping in *. rewrite N.
    unfold kid_content. destruct (m_kids (s_makes st m) c) as [k|] eqn:E; [|apply app_nil_r].
    assert (Z : content cfg d (k_out k) = []).
    { destruct (K _ eq_refl) as [S | [S | S]].
      - eapply g_sync; eauto using task_none.
      - eapply g_done; eauto.
      - apply some_output_false; auto. }
    rewrite Z. apply app_nil_r.
  Qed.

  (** A child whose output is not held back stays so until its next command is started. *)
  Definition plain (M : make) (c : nat) : Prop := exists k, m_kids M c = Some k /\ (o_sync (k_out k) = false \/ k_done k = true).

  Lemma put_sync : forall m c o err t o' es, put m c o err t = (o', es) -> o_sync o' = o_sync o.
  Proof. intros m c o err t o' es P. unfold put in P. destruct o as [[oo|] [oe|] [] []], err; injection P as <- <-; reflexivity. Qed.
  Lemma start_sync : forall m o tr o' tr' es, output_start cfg m o tr = (o', tr', es) -> o_sync o' = o_sync o.
  Proof.
    intros m o tr o' tr' es H. unfold output_start in H.
    destruct (negb (per_dump (c_mode cfg)) && negb tr && c_print cfg); injection H as <- <- <-;
      destruct (o_sync o && negb (is_set o)); unfold setup_tmpfile; destruct (c_same cfg); reflexivity.
  Qed.

  Lemma act_plain_kid : forall m M e M' en c, plain M c -> act m M e = Some (M', en) -> (forall r, e <> Start c r) -> plain M' c.
  Proof.
    intros m M e M' en c P H N.
    assert (U : forall M1 c1 k1, m_kids M1 = m_kids M -> (c1 = c -> o_sync (k_out k1) = false \/ k_done k1 = true) -> plain (set_kid M1 c1 k1) c).
    { intros M1 c1 k1 E1 X. unfold plain, set_kid. cbn. rewrite E1. destruct (Nat.eq_dec c c1) as [<-|D].
      - exists k1. rewrite upd_same. auto.
      - destruct P as (k & K & Q). exists k. rewrite upd_other; auto. }
    assert (V : forall M1 t, plain M1 c -> plain (set_task M1 t) c) by (intros M1 t X; exact X).
    assert (B : forall c1 k1 cl, (c1 = c -> o_sync (k_out k1) = false \/ k_done k1 = true) -> plain (begin_dump cfg M c1 k1 cl) c).
    { intros c1 k1 cl X. unfold begin_dump. destruct (some_output (k_out k1)); [apply V, U; auto|]. apply U; auto. intros E. destruct cl; auto. }
    assert (K1 : forall k, m_kids M c = Some k -> o_sync (k_out k) = false \/ k_done k = true).
    { destruct P as (k0 & K0 & Q). intros k K. replace k with k0 by congruence. auto. }
    destruct e as [c1 | c1 r | c1 err t | c1 | c1 err t | c1 | c1 | c1 | ok | | |]; cbn [M_Output.act] in H.
    - destruct (m_kids M c1) eqn:K; try discriminate. destruct (idle M); try discriminate. injection H as <- <-. apply U; auto.
      intros ->. destruct P as (k & K' & _). congruence.
    - destruct (at_rest M c1) as [k|] eqn:A; try discriminate. assert (c1 <> c) by (intros ->; apply (N r); auto). injection H as <- <-.
      destruct (_ && _); [apply U; auto; tauto | apply B; tauto].
    - destruct (at_rest M c1) as [k|] eqn:A; try discriminate. apply at_rest_some in A. destruct A as (K & D & _).
      destruct t as [| a t]; try discriminate. remember (a :: t) as txt. destruct (output_start cfg m (k_out k) (m_traced M)) as [[o1 tr] es1] eqn:O.
      destruct (put m c1 o1 err txt) as [o2 es2] eqn:PU. injection H as <- <-. apply U; auto. intros ->. left. cbn. rewrite (put_sync _ _ _ _ _ _ _ PU), (start_sync _ _ _ _ _ _ O).
      destruct (K1 _ K); congruence.
    - destruct (at_rest M c1) as [k|] eqn:A; try discriminate. apply at_rest_some in A. destruct A as (K & D & _). destruct (k_ready k); try discriminate.
      destruct (output_start cfg m (k_out k) (m_traced M)) as [[o1 tr] es1] eqn:O. injection H as <- <-. apply U; auto. intros ->. left. cbn. rewrite (start_sync _ _ _ _ _ _ O).
      destruct (K1 _ K); congruence.
    - destruct (live M c1) as [k|] eqn:A; try discriminate. apply live_some in A. destruct A as (K & D). destruct (k_runs k); try discriminate.
      destruct (put m c1 (k_out k) err t) as [o2 es2] eqn:PU. injection H as <- <-. apply U; auto. intros ->. left. cbn. rewrite (put_sync _ _ _ _ _ _ _ PU). destruct (K1 _ K); congruence.
    - destruct (live M c1) as [k|] eqn:A; try discriminate. apply live_some in A. destruct A as (K & D). destruct (k_runs k); try discriminate.
      injection H as <- <-. apply U; auto. intros ->. left. cbn. destruct (K1 _ K); congruence.
    - destruct (at_rest M c1) as [k|] eqn:A; try discriminate. apply at_rest_some in A. destruct A as (K & D & _).
      destruct (c_mode cfg); injection H as <- <-; auto. apply B. intros ->. auto.
    - destruct (at_rest M c1) as [k|] eqn:A; try discriminate. apply at_rest_some in A. destruct A as (K & D & _). injection H as <- <-. apply B. intros ->. auto.
    - destruct (m_task M) as [[c1 cl|]|]; try discriminate. destruct (m_kids M c1); try discriminate. injection H as <- <-. exact P.
    - destruct (m_task M) as [[c1 cl|c1 cl h [|x l]]|]; try discriminate. injection H as <- <-. exact P.
    - destruct (m_task M) as [[c1 cl|c1 cl h [|x l]]|]; try discriminate. destruct (m_kids M c1) as [k|] eqn:K; try discriminate. injection H as <- <-. apply V, U; auto.
      intros ->. destruct cl; [right; auto|]. cbn. auto.
    - destruct (idle M); try discriminate. injection H as <- <-. exact P.
  Qed.

  Lemma run_plain_kid : forall b st st' m c, plain (s_makes st m) c -> run st b = Some st' -> (forall r, ~ In (m, Start c r) b) -> plain (s_makes st' m) c.
  Proof.
    induction b as [| [m1 e] b IH]; intros st st' m c P R N; cbn in R; [congruence|].
    destruct (step st m1 e) as [st1|] eqn:S; try discriminate. apply step_inv in S. destruct S as (M' & en & A & SM & _).
    eapply IH; [|exact R|intros r I; apply (N r); right; auto]. rewrite SM. destruct (Nat.eq_dec m m1) as [<-|D]; [|rewrite upd_other; auto].
    rewrite upd_same. eapply act_plain_kid; eauto. intros r ->. apply (N r). left. auto.
  Qed.

  (** Kids stay. *)
  Theorem run_direct : forall a b m c st d, c_mode cfg <> M_recurse -> run init (a ++ (m, Start c true) :: b) = Some st -> (forall r, ~ In (m, Start c r) b) ->
    not_dumping st m -> bytes (c_same cfg) d (said (a ++ (m, Start c true) :: b) m c) = bytes (c_same cfg) d (shown (s_term st) m c).
  Proof.
    intros a b m c st d MO R N D. assert (R0 := R). rewrite run_app in R. destruct (run init a) as [st1|]; try discriminate. cbn in R.
    destruct (step st1 m (Start c true)) as [st2|] eqn:S; try discriminate. apply step_inv in S. destruct S as (M' & en & A & SM & _).
    apply all_shown with (1 := R0) (2 := D). intros k K.
    assert (P : plain (s_makes st m) c); [|destruct P as (k0 & K0 & Q); replace k with k0 by congruence; tauto].
    refine (run_plain_kid b st2 st m c _ R N). rewrite SM, upd_same. cbn [M_Output.act] in A. destruct (at_rest (s_makes st1 m) c) as [k1|]; try discriminate.
    assert (Z : syncs (c_mode cfg) && match c_mode cfg with M_recurse => true | _ => negb true end = false).
    { destruct (c_mode cfg); cbn; auto. congruence. }
    rewrite Z in A. injection A as <- <-. unfold begin_dump. destruct (some_output _); unfold plain, set_task, set_kid; cbn; eexists; rewrite upd_same; split; eauto.
  Qed.

  (** -Oline: what was said up to the end of a line is there before the next one starts. *)

  Lemma at_rest_busy : forall M c k, at_rest M c = Some k -> task_kid M = None.
  Proof. intros M c k H. apply at_rest_some in H. destruct H as (_ & _ & _ & T). unfold task_kid. rewrite T. reflexivity. Qed.

  (** While the output of [c] is being dumped nothing is said for it. *)
  Lemma busy_quiet : forall m M e M' en c, good cfg m M -> act m M e = Some (M', en) -> task_kid M = Some c -> said [(m, e)] m c = [] /\ (task_kid M' = Some c \/ e = Release).
  Proof.
    intros m M e M' en c G H T.
    assert (RS : forall c1 k, at_rest M c1 = Some k -> False) by (intros c1 k X; apply at_rest_busy in X; congruence).
    destruct (g_task _ _ _ G _ T) as (k0 & K0 & R0 & D0).
    assert (LV : forall c1 k, live M c1 = Some k -> k_runs k = true -> c1 <> c).
    { intros c1 k L R ->. apply live_some in L. destruct L as [L _]. congruence. }
    assert (TK : forall f tr q, task_kid (mkmake f tr (m_task M) q) = Some c) by (intros; exact T).
    destruct e as [c1 | c1 r | c1 err t | c1 | c1 err t | c1 | c1 | c1 | ok | | |]; cbn [M_Output.act] in H.
    - unfold idle in H. unfold task_kid in T. destruct (m_task M) eqn:TT; try discriminate. destruct (m_kids M c1); try discriminate.
    - destruct (at_rest M c1) eqn:A; try discriminate. destruct (RS _ _ A).
    - destruct (at_rest M c1) eqn:A; try discriminate. destruct (RS _ _ A).
    - destruct (at_rest M c1) eqn:A; try discriminate. destruct (RS _ _ A).
    - destruct (live M c1) as [k|] eqn:A; try discriminate. destruct (k_runs k) eqn:R; try discriminate. pose proof (LV _ _ A R) as N.
      destruct (put m c1 (k_out k) err t). injection H as <- <-. split; [|left; apply TK]. unfold said. cbn. apply Nat.eqb_neq in N. rewrite N, andb_false_r. reflexivity.
    - destruct (live M c1) as [k|] eqn:A; try discriminate. destruct (k_runs k) eqn:R; try discriminate. injection H as <- <-. split; [reflexivity|left; apply TK].
    - destruct (at_rest M c1) eqn:A; try discriminate. destruct (RS _ _ A).
    - destruct (at_rest M c1) eqn:A; try discriminate. destruct (RS _ _ A).
    - unfold task_kid in T. destruct (m_task M) as [[c1 cl|]|]; try discriminate. destruct (m_kids M c1); try discriminate. injection H as <- <-. split; [reflexivity|left]. exact T.
    - unfold task_kid in T. destruct (m_task M) as [[c1 cl|c1 cl h [|x l]]|]; try discriminate. injection H as <- <-. split; [reflexivity|left]. exact T.
    - split; [reflexivity|auto].
    - unfold idle in H. unfold task_kid in T. destruct (m_task M); try discriminate.
  Qed.

  Theorem run_line : forall a b m c st d, c_mode cfg = M_line -> run init (a ++ (m, Next c) :: b) = Some st -> not_dumping st m ->
    prefix (bytes (c_same cfg) d (said a m c)) (bytes (c_same cfg) d (shown (s_term st) m c)).
  Proof.
    intros a b m c st d MO R D.
    assert (I : (task_kid (s_makes st m) = Some c /\ said (a ++ (m, Next c) :: b) m c = said a m c)
                \/ prefix (bytes (c_same cfg) d (said a m c)) (bytes (c_same cfg) d (shown (s_term st) m c))).
    2: { destruct I as [[T _]|I]; auto. unfold task_kid in T. unfold not_dumping in D. rewrite D in T. discriminate. }
    clear D. revert st R. induction b as [| [m1 e] b IH] using rev_ind; intros st R.
    - apply run_snoc in R. destruct R as (st1 & R & S). apply step_inv in S. destruct S as (M' & en & A & SM & ST & _).
      destruct (run_kept cfg _ _ R m) as [G Q]. destruct (act_fits _ _ _ _ _ _ G A) as (_ & _ & W).
      cbn [M_Output.act] in A. destruct (at_rest (s_makes st1 m) c) as [k|] eqn:AR; try discriminate. rewrite MO in A. injection A as <- <-.
      rewrite ST, app_nil_r, SM, upd_same. apply at_rest_some in AR. destruct AR as (K & _ & _ & T). unfold begin_dump. destruct (some_output (k_out k)) eqn:SO.
      + left. split; [reflexivity|]. rewrite said_app. cbn. apply app_nil_r.
      + right. exists []. rewrite app_nil_r, Q. unfold waiting, kid_content. rewrite T, K, (some_output_false _ _ SO), app_nil_r. reflexivity.
    - assert (R0 := R). change (a ++ (m, Next c) :: b ++ [(m1, e)]) with (a ++ ((m, Next c) :: b) ++ [(m1, e)]) in R. rewrite app_assoc in R. apply run_snoc in R. destruct R as (st1 & R & S). apply step_inv in S. destruct S as (M' & en & A & SM & ST & _).
      destruct (run_kept cfg _ _ R m1) as [G1 _]. rewrite ST, SM. destruct (IH _ R) as [[T SD] | (r & IHp)].
      + destruct (Nat.eq_dec m m1) as [<-|N].
        * destruct (busy_quiet _ _ _ _ _ _ G1 A T) as [SQ [TT | ->]].
          -- left. rewrite upd_same. split; auto. change (a ++ (m, Next c) :: b ++ [(m, e)]) with (a ++ ((m, Next c) :: b) ++ [(m, e)]). rewrite app_assoc, said_app, SQ, app_nil_r. exact SD.
          -- right. destruct (run_kept cfg _ _ R0 m) as [_ Q]. specialize (Q c d). rewrite ST, SM, upd_same in Q.
             assert (SD' : said (a ++ (m, Next c) :: b ++ [(m, Release)]) m c = said a m c).
             { change (a ++ (m, Next c) :: b ++ [(m, Release)]) with (a ++ ((m, Next c) :: b) ++ [(m, Release)]). rewrite app_assoc, said_app, SQ, app_nil_r. exact SD. }
             rewrite SD' in Q. cbn [M_Output.act] in A. unfold task_kid in T. destruct (m_task (s_makes st1 m)) as [[c1 cl|c1 cl h [|x l]]|]; try discriminate. injection T as ->.
             destruct (m_kids (s_makes st1 m) c) as [k|] eqn:K; try discriminate. injection A as <- <-. exists []. rewrite app_nil_r, Q. unfold waiting, kid_content, set_task, set_kid. cbn [m_task m_kids].
             rewrite upd_same. destruct cl; cbn [k_out closed]; rewrite ?content_init, ?content_truncated, !app_nil_r; reflexivity.
        * left. rewrite upd_other by auto. split; auto. change (a ++ (m, Next c) :: b ++ [(m1, e)]) with (a ++ ((m, Next c) :: b) ++ [(m1, e)]). rewrite app_assoc, said_app, SD.
          unfold said at 2. cbn. apply not_eq_sym, Nat.eqb_neq in N. rewrite N. cbn. destruct e; apply app_nil_r.
      + right. exists (r ++ bytes (c_same cfg) d (shown en m c)). rewrite shown_app, bytes_app, IHp, app_assoc. reflexivity.
  Qed.

  (** * Dumps come to an end *)
  Lemma pump_out : forall l st m c cl h, m_task (s_makes st m) = Some (T_pump c cl h l) -> (exists k, m_kids (s_makes st m) c = Some k) ->
    exists st', run st (map (fun e => (m, e)) (repeat Pump (length l) ++ [Release])) = Some st' /\ m_task (s_makes st' m) = None
      /\ (s_lock st' = if h then None else s_lock st) /\ forall m', m' <> m -> s_makes st' m' = s_makes st m'.
  Proof.
    induction l as [| x l IH]; intros st m c cl h T [k K].
    - unfold M_Output.run, M_Output.step. cbn. rewrite T, K. destruct h; cbn; eexists; (split; [reflexivity|]); cbn; rewrite upd_same; (split; [reflexivity|]); (split; [reflexivity|]); intros; apply upd_other; auto.
    - cbn [length repeat map app M_Output.run]. assert (S : exists st1, step st m Pump = Some st1 /\ s_makes st1 = upd (s_makes st) m (set_task (s_makes st m) (Some (T_pump c cl h l))) /\ s_lock st1 = s_lock st).
      { unfold M_Output.step. cbn. rewrite T. eexists. split; [reflexivity|]. auto. }
      destruct S as (st1 & S1 & S2 & S3). rewrite S1. destruct (IH st1 m c cl h) as (st' & R & N & L & O).
      + rewrite S2, upd_same. reflexivity.
      + exists k. rewrite S2, upd_same. exact K.
      + exists st'. split; auto. split; auto. split; [rewrite L, S3; reflexivity|]. intros m' N'. rewrite O, S2, upd_other; auto.
  Qed.

  Theorem run_ends : forall es st m, run init es = Some st -> locks es -> exists es' st', run st es' = Some st' /\ not_dumping st' m /\
    Forall (fun x => snd x = Acquire true \/ snd x = Pump \/ snd x = Release) es'.
  Proof.
    intros es st m R L. destruct (run_cut cfg _ _ R L) as (bs & part & X).
    assert (PR : forall m1 n, Forall (fun x : nat * event => snd x = Acquire true \/ snd x = Pump \/ snd x = Release) (map (fun e => (m1, e)) (repeat Pump n ++ [Release]))).
    { intros m1 n. apply Forall_forall. intros x I. apply in_map_iff in I. destruct I as (e & <- & I). apply in_app_or in I. destruct I as [I|[<-|[]]]; cbn; auto. apply repeat_spec in I. auto. }
    destruct (run_kept cfg _ _ R m) as [G _]. destruct (m_task (s_makes st m)) as [[c cl|c cl h l]|] eqn:T.
    - (* waiting: let the holder finish first *)
      destruct (g_task _ _ _ G c ltac:(unfold task_kid; rewrite T; reflexivity)) as (k & K & _).
      assert (H : exists es1 st1, run st es1 = Some st1 /\ s_lock st1 = None /\ s_makes st1 m = s_makes st m /\ Forall (fun x => snd x = Acquire true \/ snd x = Pump \/ snd x = Release) es1).
      { destruct (s_lock st) as [m1|] eqn:LK.
        - destruct (x_lock _ _ _ _ _ X m1 LK) as (c1 & cl1 & l1 & T1 & _). destruct (run_kept cfg _ _ R m1) as [G1 _].
          destruct (g_task _ _ _ G1 c1 ltac:(unfold task_kid; rewrite T1; reflexivity)) as (k1 & K1 & _).
          destruct (pump_out l1 st m1 c1 cl1 true T1 (ex_intro _ _ K1)) as (st1 & R1 & _ & L1 & O1). eexists _, st1. split; [exact R1|]. split; auto. split; auto. apply O1. congruence.
        - exists [], st. cbn. auto. }
      destruct H as (es1 & st1 & R1 & L1 & M1 & F1).
      assert (S : exists st2, step st1 m (Acquire true) = Some st2 /\ s_makes st2 m = set_task (s_makes st m) (Some (T_pump c cl true (dump_entries cfg m c (k_out k))))).
      { unfold M_Output.step. cbn. rewrite L1, M1, T, K. eexists. split; [reflexivity|]. cbn. apply upd_same. }
      destruct S as (st2 & S1 & S2). destruct (pump_out (dump_entries cfg m c (k_out k)) st2 m c cl true) as (st3 & R3 & N3 & _).
      + rewrite S2. reflexivity.
      + exists k. rewrite S2. exact K.
      + exists (es1 ++ (m, Acquire true) :: map (fun e => (m, e)) (repeat Pump (length (dump_entries cfg m c (k_out k))) ++ [Release])), st3.
        split; [|split; [exact N3|]].
        * rewrite run_app, R1. cbn [M_Output.run]. rewrite S1. exact R3.
        * apply Forall_app. split; [exact F1|]. constructor; [left; reflexivity | apply PR].
    - destruct (g_task _ _ _ G c ltac:(unfold task_kid; rewrite T; reflexivity)) as (k & K & _).
      destruct (pump_out l st m c cl h T (ex_intro _ _ K)) as (st1 & R1 & N1 & _). eexists _, st1. split; [exact R1|]. split; auto.
    - exists [], st. cbn. auto.
  Qed.

  (** * Entering and leaving *)
  Record told (es : list (nat * event)) (m : nat) (M : make) (l : list entry) : Prop := {
    t_new : m_traced M = false -> l = [] /\ m_task M = None /\ forall c k, m_kids M c = Some k -> k_runs k = false /\ is_set (k_out k) = false;
    t_old : m_traced M = true -> exists ts, l = mkentry m None false Enter :: ts /\ (forall e, In e ts -> e_what e <> Enter) /\ ((exists e, In e ts /\ e_what e = Leave) <-> In (m, Quit) es);
    t_task : forall c cl h p, m_task M = Some (T_pump c cl h p) -> forall e, In e p -> e_what e <> Enter /\ e_what e <> Leave;
    t_quit : m_quit M = true <-> In (m, Quit) es }.

  Lemma by_app : forall m a b, made m (a ++ b) = made m a ++ made m b.
  Proof. intros. apply filter_app. Qed.
  Lemma by_all : forall m l, Forall (fun e => e_make e = m) l -> made m l = l.
  Proof. intros m l H. unfold made. induction H as [| x l H _ IH]; auto. cbn. rewrite H, Nat.eqb_refl, IH. reflexivity. Qed.
  Lemma by_none : forall m l, Forall (fun e => e_make e <> m) l -> made m l = [].
  Proof. intros m l H. unfold made. induction H as [| x l H _ IH]; auto. cbn. apply Nat.eqb_neq in H. rewrite H. exact IH. Qed.

  Definition text (e : entry) : Prop := e_what e <> Enter /\ e_what e <> Leave.

  Lemma told_add : forall es m M l M' en e, told es m M l -> e <> Quit -> m_traced M = true -> m_traced M' = true ->
    Forall text en -> m_quit M' = m_quit M ->
    (forall c cl h p, m_task M' = Some (T_pump c cl h p) -> Forall text p) -> told (es ++ [(m, e)]) m M' (l ++ en).
  Proof.
    intros es m M l M' en e T NQ Tr Tr' F Q P.
    assert (IN : In (m, Quit) (es ++ [(m, e)]) <-> In (m, Quit) es).
    { rewrite in_app_iff. split; auto. intros [H|[H|[]]]; auto. congruence. }
    constructor.
    - congruence.
    - intros _. destruct (t_old _ _ _ _ T Tr) as (ts & -> & A & B). exists (ts ++ en). split; [reflexivity|]. split.
      + intros x I. apply in_app_or in I. destruct I as [I|I]; auto. rewrite Forall_forall in F. apply F; auto.
      + rewrite IN, <- B. split; intros (x & I & W).
        * apply in_app_or in I. destruct I as [I|I]; eauto. rewrite Forall_forall in F. destruct (F _ I). congruence.
        * exists x. split; auto. apply in_or_app. auto.
    - intros c cl h p H x I. specialize (P _ _ _ _ H). rewrite Forall_forall in P. apply P; auto.
    - rewrite IN, Q. apply (t_quit _ _ _ _ T).
  Qed.

  Lemma told_new : forall es m M l M' e, told es m M l -> e <> Quit -> m_traced M = false -> m_traced M' = false -> m_quit M' = m_quit M -> m_task M' = None ->
    (forall c k, m_kids M' c = Some k -> k_runs k = false /\ is_set (k_out k) = false) -> told (es ++ [(m, e)]) m M' l.
  Proof.
    intros es m M l M' e T NQ Tr Tr' Q TT K.
    assert (IN : In (m, Quit) (es ++ [(m, e)]) <-> In (m, Quit) es).
    { rewrite in_app_iff. split; auto. intros [H|[H|[]]]; auto. congruence. }
    constructor.
    - intros _. destruct (t_new _ _ _ _ T Tr) as (-> & _ & _). auto.
    - congruence.
    - congruence.
    - rewrite IN, Q. apply (t_quit _ _ _ _ T).
  Qed.

  (** The first thing said. *)
  Lemma told_first : forall es m M l M' en e, told es m M l -> e <> Quit -> m_traced M = false -> m_traced M' = true -> m_quit M = false ->
    m_quit M' = false -> m_task M' = None -> Forall text en -> told (es ++ [(m, e)]) m M' (l ++ mkentry m None false Enter :: en).
  Proof.
    intros es m M l M' en e T NQ Tr Tr' Q0 Q TT F. destruct (t_new _ _ _ _ T Tr) as (-> & _ & _).
    assert (NI : ~ In (m, Quit) (es ++ [(m, e)])).
    { rewrite in_app_iff. intros [H|[H|[]]]; [|congruence]. apply (t_quit _ _ _ _ T) in H. congruence. }
    constructor; try congruence.
    - intros _. exists en. split; [reflexivity|]. rewrite Forall_forall in F. split; [intros x I; apply F; auto|]. split; [intros (x & I & W); destruct (F _ I); congruence | tauto].
    - rewrite Q. split; [discriminate | tauto].
  Qed.

  Lemma put_text : forall m c o err t o' es, put m c o err t = (o', es) -> Forall text es.
  Proof.
    intros m c o err t o' es P. unfold put in P. destruct o as [[oo|] [oe|] [] []], err; injection P as <- <-; repeat constructor; discriminate.
  Qed.

  Lemma act_told : forall es m M e M' en l, per_dump (c_mode cfg) = false -> c_print cfg = true -> told es m M l -> act m M e = Some (M', en) ->
    told (es ++ [(m, e)]) m M' (l ++ en).
  Proof.
    intros es m M e M' en l PD PR T H.
    assert (ST : forall o, output_start cfg m o (m_traced M) = (if o_sync o && negb (is_set o) then setup_tmpfile cfg o else o, true, if m_traced M then [] else [mkentry m None false Enter])).
    { intros o. unfold output_start. rewrite PD, PR. destruct (m_traced M); reflexivity. }
    assert (OLD : forall c cl h p, m_task M = Some (T_pump c cl h p) -> Forall text p).
    { intros c cl h p X. apply Forall_forall. intros x I. apply (t_task _ _ _ _ T _ _ _ _ X); auto. }
    (* a change without a word *)
    assert (Q : forall c k k', e <> Quit -> m_kids M c = Some k \/ (m_kids M c = None) -> (m_traced M = false -> k_runs k' = false /\ is_set (k_out k') = false) -> told (es ++ [(m, e)]) m (set_kid M c k') (l ++ [])).
    { intros c k k' NQ _ X. destruct (m_traced M) eqn:Tr.
      - apply told_add with M; auto. 
      - rewrite app_nil_r. destruct (t_new _ _ _ _ T Tr) as (_ & TT & KK). apply told_new with M; auto. intros c0 k0. unfold set_kid. cbn. unfold upd. destruct (c0 =? c); [intros E; injection E as <-; auto | apply KK]. }
    assert (B : forall c k k' cl, e <> Quit -> m_kids M c = Some k -> o_out (k_out k') = o_out (k_out k) -> o_err (k_out k') = o_err (k_out k) -> k_runs k' = false ->
       told (es ++ [(m, e)]) m (begin_dump cfg M c k' cl) (l ++ [])).
    { intros c k k' cl NQ K E1 E2 R. unfold begin_dump. destruct (some_output (k_out k')) eqn:S.
      - destruct (m_traced M) eqn:Tr.
        + apply told_add with M; auto. cbn. discriminate.
        + destruct (t_new _ _ _ _ T Tr) as (_ & _ & KK). destruct (KK _ _ K) as [_ KS]. unfold some_output, is_set in *. rewrite E1, E2 in S. destruct (o_out (k_out k)), (o_err (k_out k)); try discriminate.
      - apply (Q c k); auto. intros Tr. destruct (t_new _ _ _ _ T Tr) as (_ & _ & KK). destruct (KK _ _ K) as [_ KS]. destruct cl; [auto|]. split; auto. unfold is_set in *. rewrite E1, E2. exact KS. }
    destruct e as [c | c r | c err t | c | c err t | c | c | c | ok | | |]; cbn [M_Output.act] in H.
    - destruct (m_kids M c) eqn:K; try discriminate. destruct (idle M); try discriminate. injection H as <- <-. apply (Q c (mkkid (output_init cfg) false false false)); auto. discriminate.
    - destruct (at_rest M c) as [k|] eqn:A; try discriminate. apply at_rest_some in A. destruct A as (K & D & R & TT). injection H as <- <-.
      destruct (_ && _).
      + apply (Q c k); auto; [discriminate|]. intros Tr. destruct (t_new _ _ _ _ T Tr) as (_ & _ & KK). destruct (KK _ _ K) as [_ KS]. auto.
      + apply (B c k); auto. discriminate.
    - destruct (at_rest M c) as [k|] eqn:A; try discriminate. assert (IM : m_quit M = false).
      { unfold at_rest, idle in A. destruct (live M c); try discriminate. destruct (m_task M); try discriminate. destruct (m_quit M); auto. discriminate. }
      apply at_rest_some in A. destruct A as (K & D & R & TT). destruct t as [| a t]; try discriminate. remember (a :: t) as txt. rewrite ST in H.
      match type of H with context [put m c ?o err txt] => destruct (put m c o err txt) as [o2 es2] eqn:P end. injection H as <- <-. apply put_text in P.
      destruct (m_traced M) eqn:Tr; cbn [app].
      + apply told_add with M; auto. discriminate.
      + apply told_first with M; auto. discriminate.
    - destruct (at_rest M c) as [k|] eqn:A; try discriminate. assert (IM : m_quit M = false).
      { unfold at_rest, idle in A. destruct (live M c); try discriminate. destruct (m_task M); try discriminate. destruct (m_quit M); auto. discriminate. }
      apply at_rest_some in A. destruct A as (K & D & R & TT). destruct (k_ready k); try discriminate. rewrite ST in H. injection H as <- <-.
      destruct (m_traced M) eqn:Tr.
      + apply told_add with M; auto. discriminate.
      + apply told_first with M; auto. discriminate.
    - destruct (live M c) as [k|] eqn:A; try discriminate. apply live_some in A. destruct A as (K & D). destruct (k_runs k) eqn:R; try discriminate.
      destruct (put m c (k_out k) err t) as [o2 es2] eqn:P. injection H as <- <-. apply put_text in P. destruct (m_traced M) eqn:Tr.
      + apply told_add with M; auto. discriminate.
      + destruct (t_new _ _ _ _ T Tr) as (_ & _ & KK). destruct (KK _ _ K). congruence.
    - destruct (live M c) as [k|] eqn:A; try discriminate. apply live_some in A. destruct A as (K & D). destruct (k_runs k) eqn:R; try discriminate. injection H as <- <-.
      apply (Q c k); auto; [discriminate|]. intros Tr. destruct (t_new _ _ _ _ T Tr) as (_ & _ & KK). destruct (KK _ _ K) as [_ KS]. auto.
    - destruct (at_rest M c) as [k|] eqn:A; try discriminate. apply at_rest_some in A. destruct A as (K & D & R & TT).
      assert (S : told (es ++ [(m, Next c)]) m M (l ++ [])).
      { destruct (m_traced M) eqn:Tr; [apply told_add with M; auto; discriminate|]. rewrite app_nil_r. destruct (t_new _ _ _ _ T Tr) as (_ & _ & KK). apply told_new with M; auto. discriminate. }
      destruct (c_mode cfg); injection H as <- <-; auto. apply (B c k); auto. discriminate.
    - destruct (at_rest M c) as [k|] eqn:A; try discriminate. apply at_rest_some in A. destruct A as (K & D & R & TT). injection H as <- <-. apply (B c k); auto. discriminate.
    - destruct (m_task M) as [[c cl | ]|] eqn:TT; try discriminate. destruct (m_kids M c) as [k|] eqn:K; try discriminate. injection H as <- <-.
      destruct (m_traced M) eqn:Tr; [|destruct (t_new _ _ _ _ T Tr) as (_ & X & _); congruence].
      apply told_add with M; auto; [discriminate|]. intros c1 cl1 h1 p1 X. unfold set_task in X. cbn in X. injection X as <- <- <- <-.
      unfold dump_entries. rewrite PD, andb_false_r. cbn. rewrite app_nil_r. apply Forall_app.
      split; unfold pump; [destruct (o_out (k_out k)) | destruct (o_err (k_out k))]; auto; apply Forall_forall; intros x I; apply in_map_iff in I; destruct I as (t & <- & _); split; discriminate.
    - destruct (m_task M) as [[c cl | c cl h [|x p]]|] eqn:TT; try discriminate. injection H as <- <-.
      destruct (m_traced M) eqn:Tr; [|destruct (t_new _ _ _ _ T Tr) as (_ & X & _); congruence].
      pose proof (OLD _ _ _ _ eq_refl) as F. inversion F; subst. apply told_add with M; auto; [discriminate|].
      intros c1 cl1 h1 p1 X. unfold set_task in X. cbn in X. injection X as <- <- <- <-. auto.
    - destruct (m_task M) as [[c cl | c cl h [|x p]]|] eqn:TT; try discriminate. destruct (m_kids M c) as [k|] eqn:K; try discriminate. injection H as <- <-.
      destruct (m_traced M) eqn:Tr; [|destruct (t_new _ _ _ _ T Tr) as (_ & X & _); congruence].
      apply told_add with M; auto; discriminate.
    - unfold idle in H. destruct (m_task M) eqn:TT; try discriminate. destruct (m_quit M) eqn:QQ; try discriminate. injection H as <- <-.
      assert (NI : ~ In (m, Quit) es) by (intros I; apply (t_quit _ _ _ _ T) in I; congruence).
      assert (YI : In (m, Quit) (es ++ [(m, Quit)])) by (apply in_or_app; right; left; reflexivity).
      constructor; cbn [m_traced m_task m_kids m_quit]; try discriminate.
      + intros Tr. rewrite Tr. destruct (t_new _ _ _ _ T Tr) as (-> & _ & KK). auto.
      + intros Tr. rewrite Tr. destruct (t_old _ _ _ _ T Tr) as (ts & -> & A & Bq). exists (ts ++ [mkentry m None false Leave]). split; [reflexivity|]. split.
        * intros x I. apply in_app_or in I. destruct I as [I|[<-|[]]]; auto. discriminate.
        * split; auto. intros _. eexists. split; [apply in_or_app; right; left; reflexivity|]. reflexivity.
      + tauto.
  Qed.

  Theorem run_told : forall es st m, per_dump (c_mode cfg) = false -> c_print cfg = true -> run init es = Some st -> told es m (s_makes st m) (made m (s_term st)).
  Proof.
    induction es as [| [m0 e] es IH] using rev_ind; intros st m PD PR H.
    - injection H as <-. constructor; cbn; try discriminate; try tauto. intros _. split; auto. split; auto. discriminate. split; [discriminate | tauto].
    - apply run_snoc in H. destruct H as (st1 & R & S). apply step_inv in S. destruct S as (M' & en & A & SM & ST & _). rewrite SM, ST, by_app.
      pose proof (IH _ m PD PR R) as T. destruct (run_kept cfg _ _ R m0) as [G0 _]. destruct (act_fits _ _ _ _ _ _ G0 A) as (_ & EM & _).
      destruct (Nat.eq_dec m m0) as [->|N].
      + rewrite upd_same, (by_all m0 en) by auto. eapply act_told; eauto.
      + assert (BN : made m en = []) by (apply by_none; eapply Forall_impl; [|exact EM]; cbn; congruence). rewrite upd_other by auto. rewrite BN, app_nil_r.
        assert (IN : In (m, Quit) (es ++ [(m0, e)]) <-> In (m, Quit) es).
        { rewrite in_app_iff. split; auto. intros [H|[H|[]]]; auto. congruence. }
        constructor; try rewrite IN; [apply (t_new _ _ _ _ T) | | apply (t_task _ _ _ _ T) | apply (t_quit _ _ _ _ T)].
        intros Tr. destruct (t_old _ _ _ _ T Tr) as (ts & X & Y & Z). exists ts. rewrite IN. auto.
  Qed.
End Proofs.
