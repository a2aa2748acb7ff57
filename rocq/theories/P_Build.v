(** Invariants of the build engine, for files without double-colon chains. *)
From Verif Require Import Base M_Build S_Build P_Notice.

(** A change of one file only. *)
Record chg (f : nat) (x : file) (st st' : state) : Prop := mkchg {
  ch_self : s_files st' f = x;
  ch_other : forall n, n <> f -> s_files st' n = s_files st n;
  ch_disk : s_disk st' = s_disk st; ch_jobs : s_jobs st' = s_jobs st; ch_clock : s_clock st' = s_clock st;
  ch_trace : s_trace st' = s_trace st; ch_pass : s_pass st' = s_pass st }.
Lemma upd_chg : forall f g st, chg f (g (s_files st f)) st (upd f g st).
Proof. intros f g st. split; try reflexivity; cbn [s_files upd]; [rewrite Nat.eqb_refl; reflexivity|]. intros n H. apply Nat.eqb_neq in H. rewrite H. reflexivity. Qed.

Section Build.
  Variable phony is_target cmds blank double : nat -> bool.
  Variable keep_going always : bool.
  Variable how : mode.
  Variable world : nat -> tick.
  Variable G : nat -> list dep.
  Variable inter : nat -> bool.
  Variable disk : nat -> time.
  Variable tried : nat -> bool.
  (** The files are those below [N0] in [Dm]; the clock at the beginning. *)
  Variable N0 clock0 : nat.
  Variable Dm : nat -> Prop.
  Definition dom (f : nat) : Prop := f < N0 /\ Dm f.
  Definition runs (f : nat) : Prop := dom f /\ cmds f = true /\ blank f = false.
  Notation base := (fun f : nat => f).
  Notation chain := (fun f : nat => [f]).
  Notation edge := (edge G).
  Notation reach := (reach G).
  Notation hopeless := (hopeless G).
  Notation reason := (reason G inter phony disk).

  Notation own := (own world).
  (** What a recipe writes is not older than what there is. *)
  Definition stamps : Prop := forall c f D n, t_ok (world c) = true -> newer (D n) (t_effect (world c) f D f) = false.
  (** Without -k nothing but a failure stops the walk over the prerequisites. *)
  Hypothesis MODE : keep_going = true \/ how = Normal \/ how = Dry.

  (** There are no intermediate files; or recipes write their own targets only, and an intermediate
      file that exists has a recipe. *)
  Definition plain : Prop := (forall f, inter f = false) \/ (own /\ forall f, inter f = true -> disk f <> Absent -> tried f = false /\ cmds f = true).
  Hypothesis PL : plain.

  (** Settled without a recipe: none was started though there is one, or there is none and no rule either. *)
  Definition passive (f : nat) (tr : list event) : Prop := (cmds f = true /\ blank f = false /\ ~ In (Start f) tr) \/ (cmds f = false /\ is_target f = false /\ phony f = false).

  Record FI (st : state) (f : nat) : Prop := mkFI {
    fi_jobs : In f (s_jobs st) <-> f_state (s_files st f) = Running;
    fi_idle : f_updated (s_files st f) = true -> f_state (s_files st f) = NotStarted \/ f_state (s_files st f) = Finished;
    fi_fin : f_state (s_files st f) = Finished -> f_updated (s_files st f) = true;
    fi_none : f_updated (s_files st f) = true -> f_mtime (s_files st f) = None -> f_state (s_files st f) = Finished;
    fi_reset : f_updated (s_files st f) = true -> f_state (s_files st f) <> Finished -> f_intermediate (s_files st f) = true /\ phony f = false;
    fi_status : f_updated (s_files st f) = true <-> f_status (s_files st f) <> NoAttempt;
    fi_started : In (Start f) (s_trace st) -> f_state (s_files st f) = Running \/ (f_updated (s_files st f) = true /\ exists ok, In (Finish f ok) (s_trace st));
    fi_running : f_state (s_files st f) = Running -> In (Start f) (s_trace st) /\ cmds f = true;
    fi_phony : phony f = true -> f_mtime (s_files st f) = Some Absent;
    fi_finish : forall ok, In (Finish f ok) (s_trace st) -> f_updated (s_files st f) = true /\ f_status (s_files st f) = (if ok then Success else Failed);
    fi_norule : In (NoRule f) (s_trace st) -> f_updated (s_files st f) = true /\ f_status (s_files st f) = Failed;
    fi_deps : forall d, In d (f_deps (s_files st f)) -> edge f (d_file d) (d_order d);
    fi_kept : forall d o, edge f d o -> (exists k, In k (f_deps (s_files st f)) /\ d_file k = d /\ d_order k = o) \/ In (Drop f d) (s_trace st);
    fi_pass : f_considered (s_files st f) <= s_pass st;
    fi_inter : f_intermediate (s_files st f) = true -> inter f = true;
    fi_cleared : own -> how = Normal -> inter f = true -> f_intermediate (s_files st f) = false -> disk f <> Absent;
    fi_disk : own -> how <> Touch -> (forall ok, ~ In (Finish f ok) (s_trace st)) -> s_disk st f = disk f;
    fi_disk2 : own -> f_updated (s_files st f) = false -> s_disk st f = disk f;
    fi_cache : own -> how = Normal -> forall m, f_mtime (s_files st f) = Some m -> phony f = true \/ m = s_disk st f;
    fi_good : (f_updated (s_files st f) = true /\ f_status (s_files st f) = Success) \/ f_state (s_files st f) = Running -> forall d, In d (f_deps (s_files st f)) -> inter (d_file d) = false \/ phony (d_file d) = true ->
      f_updated (s_files st (d_file d)) = true /\ f_status (s_files st (d_file d)) = Success;
    fi_all : f_updated (s_files st f) = true \/ f_state (s_files st f) = Running ->
      forall d, In d (f_deps (s_files st f)) -> f_intermediate (s_files st f) = true \/ inter (d_file d) = false \/ phony (d_file d) = true -> f_updated (s_files st (d_file d)) = true;
    fi_fresh : f_intermediate (s_files st f) = true -> f_updated (s_files st f) = false -> f_state (s_files st f) <> Running ->
      f_mtime (s_files st f) = None \/ f_mtime (s_files st f) = Some Absent;
    fi_waits : f_state (s_files st f) = DepsRunning -> f_mtime (s_files st f) <> None;
    fi_tried : cmds f = true -> tried f = false -> f_tried (s_files st f) = false;
    fi_bad : f_updated (s_files st f) = true -> bad (f_status (s_files st f)) = true -> how = Ask \/ how = Touch \/ hopeless (s_trace st) f;
    fi_k : f_updated (s_files st f) = true -> keep_going = false -> how = Normal \/ how = Dry -> f_status (s_files st f) = Success;
    fi_made : own -> stamps -> how = Normal -> In (Finish f true) (s_trace st) -> forall d o, edge f d o ->
      In (Drop f d) (s_trace st) \/ (f_updated (s_files st d) = true /\ newer (s_disk st d) (s_disk st f) = false);
    fi_new : how <> Touch -> f_updated (s_files st f) = true -> f_status (s_files st f) = Success -> passive f (s_trace st) ->
      exists m, f_mtime (s_files st f) = Some m /\ m <> Absent /\ forall d, In d (f_deps (s_files st f)) -> d_order d = false -> inter (d_file d) = false \/ phony (d_file d) = true ->
        f_updated (s_files st (d_file d)) = true /\ exists md, f_mtime (s_files st (d_file d)) = Some md /\ md <> Absent /\ newer md m = false;
    fi_dry : how = Dry \/ how = Ask -> forall m, f_mtime (s_files st f) = Some m -> phony f = true \/ m = disk f \/ (m = New /\ cmds f = true /\ (blank f = true \/ In (Start f) (s_trace st)));
    fi_shown : how = Dry -> phony f = false -> In (Start f) (s_trace st) -> f_mtime (s_files st f) = Some New }.

  Definition work (t : list event) : nat := length (starts t) + length (finishes t).
  Record GI (st : state) : Prop := mkGI {
    gi_nodup : NoDup (s_jobs st);
    gi_mode : how <> Normal -> s_jobs st = [];
    gi_still : how <> Normal -> how <> Touch -> s_disk st = disk;
    gi_ask : how = Ask \/ how = Touch -> forall f, ~ In (Start f) (s_trace st);
    gi_once : NoDup (starts (s_trace st));
    gi_ends : NoDup (finishes (s_trace st)) /\ forall t2 f ok t1, s_trace st = t2 ++ Finish f ok :: t1 -> In (Start f) t1;
    gi_dom : forall f, In (Start f) (s_trace st) -> runs f;
    gi_norule : forall f, In (NoRule f) (s_trace st) -> dom f /\ cmds f = false /\ is_target f = false /\ phony f = false;
    gi_clock : how = Normal -> s_clock st = clock0 + work (s_trace st);
    gi_order : forall t2 f t1 d o, s_trace st = t2 ++ Start f :: t1 -> edge f d o -> In (Drop f d) t1 \/ ((f_updated (s_files st d) = true /\ f_status (s_files st d) = Success) /\ before t1 (s_trace st) d);
    gi_need : own -> how = Normal -> justified G inter phony disk always double (s_trace st);
    gi_drop : drops_cycles G (s_trace st) }.
  Definition Inv (st : state) : Prop := (forall f, FI st f) /\ GI st.

  (** What never changes back. *)
  Definition Q (st : state) (d : nat) : Prop :=
    f_intermediate (s_files st d) = true /\ (f_mtime (s_files st d) <> None \/ f_state (s_files st d) = Running \/ f_state (s_files st d) = Finished).
  Record ext (st st' : state) : Prop := mkext {
    ex_trace : exists l, s_trace st' = l ++ s_trace st;
    ex_upd : forall g, f_updated (s_files st g) = true -> f_updated (s_files st' g) = true /\ f_status (s_files st' g) = f_status (s_files st g);
    ex_mtime : forall g m, f_updated (s_files st g) = true -> f_mtime (s_files st g) = Some m -> f_mtime (s_files st' g) = Some m;
    ex_Q : forall g, Q st g -> Q st' g;
    ex_inter : forall g, f_intermediate (s_files st' g) = true -> f_intermediate (s_files st g) = true;
    ex_pass : s_pass st' = s_pass st;
    ex_clock : s_clock st <= s_clock st';
    ex_disk : own -> forall g, f_updated (s_files st g) = true -> s_disk st' g = s_disk st g }.
  Lemma ext_refl : forall st, ext st st.
  Proof. intros st. split; auto. exists []. reflexivity. Qed.
  Lemma ext_trans : forall a b c, ext a b -> ext b c -> ext a c.
  Proof.
    intros a b c [(l1 & T1) U1 M1 Q1 I1 P1 C1 D1] [(l2 & T2) U2 M2 Q2 I2 P2 C2 D2]. split; auto.
    - exists (l2 ++ l1). rewrite T2, T1, app_assoc. reflexivity.
    - intros g H. destruct (U1 g H) as [A B]. destruct (U2 g A) as [C D]. split; [exact C|]. rewrite D. exact B.
    - intros g m H K. apply M2; [apply U1; exact H|]. apply M1; assumption.
    - rewrite P2. exact P1.
    - lia.
    - intros O g H. rewrite (D2 O g (proj1 (U1 g H))). exact (D1 O g H).
  Qed.
  Lemma ext_in : forall st st' e, ext st st' -> In e (s_trace st) -> In e (s_trace st').
  Proof. intros st st' e [(l & T) _ _ _ _ _ _ _] H. rewrite T. apply in_or_app. right. exact H. Qed.
  Lemma hopeless_mono : forall tr l f, hopeless tr f -> hopeless (l ++ tr) f.
  Proof.
    intros tr l f H. induction H as [f H|f H|f d o E H IH]; [apply h_failed; apply in_or_app; right; exact H|apply h_no_rule; apply in_or_app; right; exact H|exact (h_dep _ _ f d o E IH)].
  Qed.
  Lemma reason_mono : forall t l this d, reason t this d -> reason (l ++ t) this d.
  Proof.
    intros t l this d H. induction H as [d H|d H K|d H|d ok H|d e H E R IH]; [apply r_phony; exact H|apply r_missing; assumption|apply r_newer; exact H|apply (r_remade _ _ _ _ _ _ d ok); apply in_or_app; right; exact H|exact (r_intermediate _ _ _ _ _ _ d e H E IH)].
  Qed.

  (** The file an event settles or starts. *)
  Definition about (e : event) : option nat := match e with Start f | Finish f _ | NoRule f => Some f | Drop _ _ => None end.
  Record same_at (g : nat) (st st' : state) : Prop := mksame {
    sa_file : s_files st' g = s_files st g;
    sa_jobs : In g (s_jobs st') <-> In g (s_jobs st);
    sa_events : forall e, about e = Some g -> In e (s_trace st') -> In e (s_trace st);
    sa_disk : own -> s_disk st' g = s_disk st g }.
  Lemma FI_mono : forall st st' g, ext st st' -> same_at g st st' -> FI st g -> FI st' g.
  Proof.
    intros st st' g E [SF SJ SE SD] F. pose proof (ex_trace _ _ E) as (l & T). pose proof (ext_in st st') as IN. destruct F. split; rewrite ?SF.
    - rewrite SJ. assumption.
    - assumption.
    - assumption.
    - assumption.
    - assumption.
    - assumption.
    - intros H. apply SE in H; [|reflexivity]. destruct (fi_started0 H) as [K|[K (ok & O)]]; [left; exact K|]. right. split; [exact K|]. exists ok. exact (IN _ E O).
    - intros H. destruct (fi_running0 H) as [A B]. split; [exact (IN _ E A)|exact B].
    - assumption.
    - intros ok H. apply fi_finish0. apply SE in H; [exact H|reflexivity].
    - intros H. apply fi_norule0. apply SE in H; [exact H|reflexivity].
    - assumption.
    - intros d o H. destruct (fi_kept0 d o H) as [K|K]; [left; exact K|right; exact (IN _ E K)].
    - rewrite (ex_pass _ _ E). assumption.
    - assumption.
    - exact fi_cleared0.
    - intros O N H. rewrite (SD O). apply fi_disk0; try assumption. intros ok K. exact (H ok (IN _ E K)).
    - intros O U. rewrite (SD O). exact (fi_disk3 O U).
    - intros O N. rewrite (SD O). exact (fi_cache0 O N).
    - intros U d D N. destruct (fi_good0 U d D N) as [A B]. destruct (ex_upd _ _ E _ A) as [A' B']. split; [exact A'|]. rewrite B'. exact B.
    - intros U d D I0. exact (proj1 (ex_upd _ _ E _ (fi_all0 U d D I0))).
    - assumption.
    - assumption.
    - assumption.
    - intros U B. destruct (fi_bad0 U B) as [K|[K|K]]; auto. right. right. rewrite T. apply hopeless_mono. exact K.
    - assumption.
    - intros O ST N F0 d o D. apply SE in F0; [|reflexivity]. destruct (fi_made0 O ST N F0 d o D) as [K|[K1 K2]]; [left; exact (IN _ E K)|right]. split; [exact (proj1 (ex_upd _ _ E _ K1))|]. rewrite (ex_disk _ _ E O d K1), (SD O). exact K2.
    - intros N U S0 PV. assert (PV' : passive g (s_trace st)) by (destruct PV as [(PV1 & PV2 & PV3)|PV]; [left; split; [exact PV1|split; [exact PV2|intros K; exact (PV3 (IN _ E K))]]|right; exact PV]). destruct (fi_new0 N U S0 PV') as (m & M & NA & K). exists m. split; [exact M|]. split; [exact NA|].
      intros d D O I. destruct (K d D O I) as (U' & md & MD & A & W). split; [exact (proj1 (ex_upd _ _ E _ U'))|]. exists md. split; [exact (ex_mtime _ _ E _ _ U' MD)|auto].
    - intros N m K. destruct (fi_dry0 N m K) as [Z|[Z|(Z1 & Z3 & Z2)]]; auto. right. right. split; [exact Z1|]. split; [exact Z3|]. destruct Z2 as [Z2|Z2]; [left; exact Z2|right; exact (IN _ E Z2)].
    - intros N P K. apply SE in K; [|reflexivity]. exact (fi_shown0 N P K).
  Qed.

  (** A change of one file that keeps the trace, the jobs and the disk. *)
  Record mild (f : nat) (x x' : file) : Prop := mkmild {
    mi_upd : f_updated x' = f_updated x;
    mi_status : f_status x' = f_status x;
    mi_mtime : forall m, f_mtime x = Some m -> f_mtime x' = Some m;
    mi_Q : f_intermediate x = true -> (f_mtime x <> None \/ f_state x = Running \/ f_state x = Finished) ->
           f_intermediate x' = true /\ (f_mtime x' <> None \/ f_state x' = Running \/ f_state x' = Finished);
    mi_inter : f_intermediate x' = true -> f_intermediate x = true }.
  Lemma chg_ext : forall f x' st st', chg f x' st st' -> mild f (s_files st f) x' -> ext st st'.
  Proof.
    intros f x' st st' [SE OT DI JO CL TR PA] [MU MS MM MQ MI].
    assert (CASE : forall (P : file -> file -> Prop) g, (forall x, P x x) -> P (s_files st f) x' -> P (s_files st g) (s_files st' g)).
    { intros P g R H. destruct (Nat.eq_dec g f) as [->|N]; [rewrite SE; exact H|rewrite (OT g N); apply R]. }
    split; try assumption.
    - exists []. exact TR.
    - intros g. apply (CASE (fun x y => f_updated x = true -> f_updated y = true /\ f_status y = f_status x)); [auto|]. rewrite MU. auto.
    - intros g m. apply (CASE (fun x y => f_updated x = true -> f_mtime x = Some m -> f_mtime y = Some m)); auto.
    - intros g. unfold Q. apply (CASE (fun x y => f_intermediate x = true /\ (f_mtime x <> None \/ f_state x = Running \/ f_state x = Finished) -> f_intermediate y = true /\ (f_mtime y <> None \/ f_state y = Running \/ f_state y = Finished))); [auto|].
      intros [A B]. exact (MQ A B).
    - intros g. apply (CASE (fun x y => f_intermediate y = true -> f_intermediate x = true)); auto.
    - lia.
    - intros _ g _. rewrite DI. reflexivity.
  Qed.
  Lemma chg_same : forall f x' st st' g, chg f x' st st' -> g <> f -> same_at g st st'.
  Proof.
    intros f x' st st' g [SE OT DI JO CL TR PA] N. split; [exact (OT g N)|rewrite JO; reflexivity|rewrite TR; auto|rewrite DI; reflexivity].
  Qed.
  Lemma chg_inv : forall f x' st st', Inv st -> chg f x' st st' -> mild f (s_files st f) x' -> FI st' f -> Inv st' /\ ext st st'.
  Proof.
    intros f x' st st' [I GG] C M H. pose proof (chg_ext f x' st st' C M) as E. split; [|exact E]. split.
    - intros g. destruct (Nat.eq_dec g f) as [->|N]; [exact H|]. exact (FI_mono st st' g E (chg_same f x' st st' g C N) (I g)).
    - destruct C as [SE OT DI JO CL TR PA]. destruct GG. split; rewrite ?JO, ?TR, ?CL, ?DI; try assumption.
      intros t2 f0 t1 d o T D. destruct (gi_order0 t2 f0 t1 d o T D) as [K|[K1 K2]]; [left; exact K|right]. destruct K1 as [K1 K3]. destruct (ex_upd _ _ E d K1) as [K4 K5]. split; [split; [exact K4|congruence]|exact K2].
  Qed.
  (** A change of considered, updating, tried or (with care) the state. *)
  Definition soft (x x' : file) : Prop :=
    f_deps x' = f_deps x /\ f_mtime x' = f_mtime x /\ f_status x' = f_status x /\ f_updated x' = f_updated x /\ f_intermediate x' = f_intermediate x.
  Definition soft_state (f : nat) (x x' : file) : Prop :=
    f_state x' = f_state x \/
    (f_state x <> Running /\ f_state x' <> Running /\ f_state x' <> Finished /\ f_mtime x <> None /\ (f_updated x = true -> f_state x' = NotStarted /\ f_intermediate x = true /\ phony f = false)).
  Lemma soft_inv : forall f x' st st', Inv st -> chg f x' st st' -> soft (s_files st f) x' -> f_considered x' <= s_pass st ->
    f_tried x' = f_tried (s_files st f) \/ cmds f = false -> soft_state f (s_files st f) x' ->
    Inv st' /\ ext st st'.
  Proof.
    intros f x' st st' I C (SD & SM & SS & SU & SI) CO TR ST.
    assert (M : mild f (s_files st f) x').
    { split; [exact SU|exact SS|rewrite SM; auto| |rewrite SI; auto]. rewrite SI, SM. intros A B. split; [exact A|]. destruct ST as [->|(R & R' & _ & Z & _)]; [exact B|]. left. exact Z. }
    apply (chg_inv f x' st st' I C M).
    pose proof (proj1 I f) as F. pose proof (chg_ext f x' st st' C M) as E.
    assert (FIN : f_state x' = Finished -> f_state (s_files st f) = Finished) by (destruct ST as [->|(_ & _ & R & _)]; [auto|intros K; contradiction]).
    assert (RUN : f_state x' = Running <-> f_state (s_files st f) = Running) by (destruct ST as [->|(R & R' & _)]; [reflexivity|split; intros K; contradiction]).
    assert (OTH : forall d, f_updated (s_files st' d) = f_updated (s_files st d) /\ f_status (s_files st' d) = f_status (s_files st d) /\ f_mtime (s_files st' d) = f_mtime (s_files st d)).
    { intros d. destruct (Nat.eq_dec d f) as [->|N]; [rewrite (ch_self _ _ _ _ C); auto|rewrite (ch_other _ _ _ _ C d N); auto]. }
    destruct F. split; rewrite ?(ch_jobs _ _ _ _ C), ?(ch_trace _ _ _ _ C), ?(ch_disk _ _ _ _ C), ?(ch_pass _ _ _ _ C), ?(ch_self _ _ _ _ C), ?SD, ?SM, ?SS, ?SU, ?SI; try assumption; rewrite ?RUN; try assumption.
    + intros U. destruct ST as [->|(_ & _ & _ & _ & Z)]; [auto|]. left. apply Z. exact U.
    + auto.
    + intros U K. destruct ST as [->|(_ & _ & _ & Z & _)]; [auto|contradiction].
    + intros U K. destruct ST as [X|(_ & _ & _ & _ & Z)]; [rewrite X in K; auto|]. apply Z. exact U.
    + intros U d D N. destruct (OTH (d_file d)) as (-> & -> & _). exact (fi_good0 U d D N).
    + intros U d D I0. destruct (OTH (d_file d)) as (-> & _). exact (fi_all0 U d D I0).
    + destruct ST as [->|(_ & _ & _ & Z & _)]; auto.
    + intros CM. destruct TR as [->|TR]; [auto|congruence].
    + intros O STA N F0 d o D. destruct (OTH d) as (-> & _). exact (fi_made0 O STA N F0 d o D).
    + intros N U S0 PV. destruct (fi_new0 N U S0 PV) as (m & MM & NA & K). exists m. split; [exact MM|]. split; [exact NA|]. intros d. destruct (OTH (d_file d)) as (-> & _ & ->). apply K.
  Qed.
  (** Reading a time. *)
  Definition lost (m : time) (x : file) : bool := negb (time_eqb m Absent) && cs_eqb (f_state x) NotStarted && negb (f_tried x) && f_intermediate x.
  Lemma mtime_cases : forall f st m st', file_mtime base chain f st = (m, st') ->
    (f_mtime (s_files st f) = Some m /\ st' = st) \/
    (f_mtime (s_files st f) = None /\ m = s_disk st f /\
     chg f (with_mtime (Some m) (with_intermediate (f_intermediate (s_files st f) && negb (lost m (s_files st f))) (s_files st f))) st st').
  Proof.
    intros f st m st' H. unfold file_mtime in H. destruct (f_mtime (s_files st f)) as [m0|] eqn:M; injection H as <- <-; [left; auto|right]. split; [reflexivity|]. split; [reflexivity|].
    unfold fetch, upd_all. cbn [fold_left]. match goal with |- chg _ ?a _ (upd f ?g st) => cut (g (s_files st f) = a); [intros <-; exact (upd_chg f g st)|] end. cbn beta zeta. fold (lost (s_disk st f) (s_files st f)).
    destruct (lost (s_disk st f) (s_files st f)) eqn:L; cbn [f_updated with_intermediate]; rewrite Bool.eqb_reflx; cbn [negb]; [rewrite Bool.andb_false_r; reflexivity|].
    rewrite Bool.andb_true_r. destruct (s_files st f); reflexivity.
  Qed.
  Lemma mtime_inv : forall f st m st', Inv st -> file_mtime base chain f st = (m, st') ->
    Inv st' /\ ext st st' /\ f_mtime (s_files st' f) = Some m /\ (forall n, n <> f -> s_files st' n = s_files st n) /\
    s_disk st' = s_disk st /\ s_jobs st' = s_jobs st /\ s_trace st' = s_trace st /\ s_clock st' = s_clock st /\ s_pass st' = s_pass st /\
    (exists i, s_files st' f = with_mtime (Some m) (with_intermediate i (s_files st f)) /\ (i = f_intermediate (s_files st f) \/ i = false)).
  Proof.
    intros f st m st' I H. destruct (mtime_cases f st m st' H) as [[M ->]|(M & D & C)].
    { split; [exact I|]. split; [apply ext_refl|]. split; [exact M|]. repeat (split; [reflexivity|]). exists (f_intermediate (s_files st f)). split; [|left; reflexivity]. destruct (s_files st f); cbn in *; subst; reflexivity. }
    pose proof (proj1 I f) as F.
    assert (PH : phony f = false). { destruct (phony f) eqn:PH; [|reflexivity]. rewrite (fi_phony _ _ F PH) in M. discriminate. }
    assert (LO : f_intermediate (s_files st f) = true -> f_mtime (s_files st f) <> None \/ f_state (s_files st f) = Running \/ f_state (s_files st f) = Finished -> lost m (s_files st f) = false).
    { intros _ [K|[K|K]]; [contradiction| |]; unfold lost; rewrite K; cbn [cs_eqb]; rewrite Bool.andb_false_r; reflexivity. }
    assert (MI : mild f (s_files st f) (with_mtime (Some m) (with_intermediate (f_intermediate (s_files st f) && negb (lost m (s_files st f))) (s_files st f)))).
    { split; cbn [f_updated f_status f_mtime f_intermediate with_mtime with_intermediate f_state]; try reflexivity; [rewrite M; discriminate| |intros K; apply Bool.andb_true_iff in K; apply K].
      intros A B. rewrite A, (LO A B). split; [reflexivity|]. left. discriminate. }
    pose proof (chg_ext _ _ _ _ C MI) as E.
    assert (FF : FI st' f).
    { assert (OTH : forall d, f_updated (s_files st' d) = f_updated (s_files st d) /\ f_status (s_files st' d) = f_status (s_files st d) /\ (forall md, f_mtime (s_files st d) = Some md -> f_mtime (s_files st' d) = Some md)).
      { intros d. destruct (Nat.eq_dec d f) as [->|N]; [rewrite (ch_self _ _ _ _ C)|rewrite (ch_other _ _ _ _ C d N); auto]. cbn. split; [reflexivity|]. split; [reflexivity|]. rewrite M. discriminate. }
      destruct F. split; rewrite ?(ch_jobs _ _ _ _ C), ?(ch_trace _ _ _ _ C), ?(ch_disk _ _ _ _ C), ?(ch_pass _ _ _ _ C), ?(ch_self _ _ _ _ C);
        cbn [f_updated f_status f_mtime f_intermediate with_mtime with_intermediate f_state f_deps f_considered f_tried]; try assumption.
      - intros _ K. discriminate.
      - intros U K. exfalso. exact (K (fi_none0 U M)).
      - congruence.
      - intros K. apply Bool.andb_true_iff in K. apply fi_inter0. apply K.
      - intros O N IN K. apply Bool.andb_false_iff in K. destruct K as [K|K]; [exact (fi_cleared0 O N IN K)|]. apply Bool.negb_false_iff in K. unfold lost in K. repeat (apply Bool.andb_true_iff in K; destruct K as [K ?]).
        apply Bool.negb_true_iff in K. assert (NA : m <> Absent) by (intros ->; discriminate K). rewrite <- (fi_disk0 O); [rewrite <- D; exact NA|congruence|]. intros ok IN'.
        destruct (fi_finish0 ok IN') as [U _]. pose proof (fi_none0 U M) as Z. rewrite Z in *. discriminate.
      - intros O N m0 K. injection K as <-. right. exact D.
      - intros U d D0 N. destruct (OTH (d_file d)) as (-> & -> & _). exact (fi_good0 U d D0 N).
      - intros U d D0 K. destruct (OTH (d_file d)) as (-> & _). apply (fi_all0 U d D0). destruct K as [K|K]; [left; apply Bool.andb_true_iff in K; apply K|right; exact K].
      - intros K U R. apply Bool.andb_true_iff in K. destruct K as [IT L]. right. f_equal. destruct m as [|n|]; [reflexivity| |]; exfalso.
        all: apply Bool.negb_true_iff in L; assert (NS : f_state (s_files st f) = NotStarted) by
          (destruct (f_state (s_files st f)) eqn:ST; [reflexivity|exfalso; exact (fi_waits0 eq_refl M)|congruence|rewrite (fi_fin0 eq_refl) in U; discriminate]).
        all: destruct PL as [P1|[O P2]]; [rewrite (P1 f) in fi_inter0; specialize (fi_inter0 IT); discriminate|].
        all: rewrite (fi_disk3 O U) in D; assert (NA : disk f <> Absent) by (rewrite <- D; discriminate); destruct (P2 f (fi_inter0 IT) NA) as [T1 T2].
        all: unfold lost in L; rewrite NS, IT, (fi_tried0 T2 T1) in L; discriminate L.
      - intros _ K. discriminate.
      - intros O STA N F0 d o D0'. destruct (OTH d) as (-> & _). exact (fi_made0 O STA N F0 d o D0').
      - intros N U S0 PV. destruct (fi_new0 N U S0 PV) as (m0 & M0 & _). congruence.
      - intros N m0 K. injection K as <-. right. left. rewrite D. rewrite (gi_still _ (proj2 I)); [reflexivity|destruct N; congruence|destruct N; congruence].
      - intros N P K. rewrite (fi_shown0 N P K) in M. discriminate. }
    destruct (chg_inv _ _ _ _ I C MI FF) as [I' _]. split; [exact I'|]. split; [exact E|]. rewrite (ch_self _ _ _ _ C). split; [reflexivity|]. split; [exact (ch_other _ _ _ _ C)|].
    rewrite (ch_disk _ _ _ _ C), (ch_jobs _ _ _ _ C), (ch_trace _ _ _ _ C), (ch_clock _ _ _ _ C), (ch_pass _ _ _ _ C). repeat (split; [reflexivity|]). eexists. split; [reflexivity|]. destruct (lost m (s_files st f)); [right; apply Bool.andb_false_r|left; apply Bool.andb_true_r].
  Qed.

  (** Dropping make: what holds of the events even when make gives up at once. *)
  Definition Dead (st : state) : Prop :=
    keep_going = false /\ GI st /\ contained G inter phony (s_trace st) /\ ((how = Normal -> own) -> present G phony disk cmds blank is_target (s_trace st)) /\
    exists e t, s_trace st = e :: t /\ failure e /\ forall x, failure x -> ~ In x t.
  Lemma not_doomed : forall st tr, Inv st -> (forall e, In e tr -> In e (s_trace st) \/ exists f0, f_updated (s_files st f0) = false /\ (e = Finish f0 false \/ e = NoRule f0)) -> (forall e, In e (s_trace st) -> In e tr) ->
    forall d, doomed G inter phony tr d -> f_updated (s_files st d) = true -> f_status (s_files st d) = Success -> False.
  Proof.
    intros st tr I EV SUB d H. induction H as [f H|f H|f d o D ND NI H IH]; intros U S0.
    - destruct (EV _ H) as [K|(f0 & U0 & [K|K])]; [destruct (fi_finish _ _ (proj1 I f) false K); congruence|injection K as <-; congruence|discriminate].
    - destruct (EV _ H) as [K|(f0 & U0 & [K|K])]; [destruct (fi_norule _ _ (proj1 I f) K); congruence|discriminate|injection K as <-; congruence].
    - destruct (fi_kept _ _ (proj1 I f) d o D) as [(x & X & <- & <-)|K]; [|exact (ND (SUB _ K))]. destruct (fi_good _ _ (proj1 I f) (or_introl (conj U S0)) x X NI) as [A B]. exact (IH A B).
  Qed.
  Lemma held : forall st tr, Inv st -> (forall e, In e tr -> In e (s_trace st) \/ exists f0, f_updated (s_files st f0) = false /\ (e = Finish f0 false \/ e = NoRule f0)) -> (forall e, In e (s_trace st) -> In e tr) -> contained G inter phony tr.
  Proof.
    intros st tr I EV SUB f d o SF D ND NI DM. destruct (EV _ SF) as [K|(f0 & _ & [K|K])]; try discriminate. apply in_split in K. destruct K as (t2 & t1 & T).
    destruct (gi_order _ (proj2 I) t2 f t1 d o T D) as [Z|[[Z1 Z2] _]].
    - apply ND. apply SUB. rewrite T. apply in_or_app. right. right. exact Z.
    - exact (not_doomed st tr I EV SUB d DM Z1 Z2).
  Qed.
  Lemma no_failure : forall st, Inv st -> keep_going = false -> forall x, failure x -> ~ In x (s_trace st).
  Proof.
    intros st I KG x (f & [-> | ->]) K; [destruct (fi_finish _ _ (proj1 I f) false K) as [U S0]|destruct (fi_norule _ _ (proj1 I f) K) as [U S0]]; rewrite (fi_k _ _ (proj1 I f) U KG) in S0; try discriminate; destruct MODE as [M|M]; congruence.
  Qed.
  Lemma here : forall st, Inv st -> (how = Normal -> own) -> present G phony disk cmds blank is_target (s_trace st).
  Proof.
    intros st I OW t2 f t1 d o T D. destruct (gi_order _ (proj2 I) t2 f t1 d o T D) as [Z|[[U SU] (B1 & _)]]; [left; exact Z|].
    destruct (phony d) eqn:PH; [right; left; reflexivity|].
    assert (PA : passive d (s_trace st) -> disk d <> Absent).
    { intros PV. pose proof (proj1 I d) as F.
      assert (HM : how = Normal \/ how = Dry).
      { destruct how eqn:HH; auto; exfalso; apply (gi_ask _ (proj2 I) ltac:(auto) f); rewrite T; apply in_or_app; right; left; reflexivity. }
      assert (NT : how <> Touch) by (destruct HM; congruence).
      assert (NS : ~ In (Start d) (s_trace st)).
      { intros K. destruct PV as [(_ & _ & Y)|(C & _)]; [contradiction|]. destruct (gi_dom _ (proj2 I) d K) as [_ [Y _]]. congruence. }
      destruct (fi_new _ _ F NT U SU PV) as (mt & M & NA & _). destruct HM as [HN|HD].
      - destruct (fi_cache _ _ F (OW HN) HN mt M) as [Y|Y]; [congruence|]. rewrite (fi_disk _ _ F (OW HN) NT) in Y; [congruence|].
        intros ok K. apply in_split in K. destruct K as (u2 & u1 & K). pose proof (proj2 (gi_ends _ (proj2 I)) u2 d ok u1 K) as Y0. apply NS. rewrite K. apply in_or_app. right. right. exact Y0.
      - destruct (fi_dry _ _ F (or_introl HD) mt M) as [Y|[Y|(_ & Y1 & Y2)]]; [congruence|congruence|]. exfalso. destruct PV as [(_ & Y3 & Y4)|(Y3 & _)]; [destruct Y2; congruence|congruence]. }
    destruct (cmds d) eqn:C.
    - destruct (blank d) eqn:BL; [right; right; left; auto|]. assert (EQ : forall a b : event, {a = b} + {a <> b}) by (repeat decide equality). destruct (in_dec EQ (Start d) (s_trace st)) as [K|K]; [right; right; right; right; left; exact (B1 K)|].
      right. right. right. right. right. apply PA. left. auto.
    - destruct (is_target d) eqn:TG; [right; right; right; left; auto|]. right. right. right. right. right. apply PA. right. auto.
  Qed.
  Lemma GI_dead : forall st f e st', Inv st -> f_updated (s_files st f) = false -> e = Finish f false \/ e = NoRule f -> s_trace st' = e :: s_trace st -> GI st' -> keep_going = false -> Dead st'.
  Proof.
    intros st f e st' I U EE T GG KG. split; [exact KG|]. split; [exact GG|]. split.
    - apply (held st); auto; rewrite T.
      + intros x [<-|X]; [|left; exact X]. right. exists f. auto.
      + intros x X. right. exact X.
    - split; [intros OW t2 f0 t1 d o T' D|]. { rewrite T in T'. destruct t2 as [|x t2]; cbn [app] in T'; injection T' as T1 T2; [destruct EE; congruence|]. exact (here st I OW t2 f0 t1 d o T2 D). }
      exists e, (s_trace st). split; [exact T|]. split; [exists f; exact EE|]. exact (no_failure st I KG).
  Qed.
  Lemma before_now : forall st d, FI st d -> f_updated (s_files st d) = true -> f_status (s_files st d) = Success -> forall tr, (forall e, about e = Some d -> In e tr -> In e (s_trace st)) -> before (s_trace st) tr d.
  Proof.
    intros st d F U S0 tr H. destruct F. split; [|split].
    - intros K. apply H in K; [|reflexivity]. destruct (fi_started0 K) as [R|(_ & ok & O)]; [destruct (fi_idle0 U); congruence|]. destruct (fi_finish0 ok O) as [_ Z]. destruct ok; [exact O|congruence].
    - intros K. apply H in K; [|reflexivity]. destruct (fi_finish0 false K). congruence.
    - intros K. apply H in K; [|reflexivity]. destruct (fi_norule0 K). congruence.
  Qed.
  Lemma before_ext : forall t1 tr tr' d, before t1 tr d -> (forall e, about e = Some d -> In e tr' -> In e tr) -> before t1 tr' d.
  Proof. intros t1 tr tr' d (A & B & C) H. split; [|split]; intros K; apply H in K; try reflexivity; auto. Qed.

  (** One step of the events, all of them about [f], which is not settled yet. *)
  Lemma starts_app : forall a b, starts (a ++ b) = starts a ++ starts b.
  Proof. intros a b. induction a as [|[] a IH]; cbn [app starts]; rewrite ?IH; reflexivity. Qed.
  Lemma starts_in : forall tr f, In f (starts tr) <-> In (Start f) tr.
  Proof.
    intros tr f. induction tr as [|e tr IH]; cbn [starts In]; [reflexivity|]. destruct e; cbn [In]; rewrite IH; split; intros H; try (destruct H as [H|H]); auto; try discriminate; left; congruence.
  Qed.
  (** What may begin now. *)
  Definition ready (st : state) (f : nat) : Prop :=
    forall d o, edge f d o -> In (Drop f d) (s_trace st) \/ (f_updated (s_files st d) = true /\ f_status (s_files st d) = Success).
  Definition allowed (st : state) (f : nat) : Prop :=
    phony f = true \/ disk f = Absent \/ always = true \/ (double f = true /\ forall d o, edge f d o -> In (Drop f d) (s_trace st)) \/
    exists d, edge f d false /\ reason (s_trace st) (disk f) d.
  (** The kinds of events. *)
  Inductive news (f : nat) (st : state) : list event -> Prop :=
  | n_none : news f st []
  | n_finish ok : In (Start f) (s_trace st) -> news f st [Finish f ok]
  | n_dry : runs f -> how = Dry -> ready st f -> ~ In (Start f) (s_trace st) -> news f st [Finish f true; Start f]
  | n_start : how = Normal -> runs f -> ready st f -> (own -> how = Normal -> allowed st f) -> ~ In (Start f) (s_trace st) -> news f st [Start f]
  | n_norule : dom f -> cmds f = false /\ is_target f = false /\ phony f = false -> (own -> how = Normal -> allowed st f) -> news f st [NoRule f]
  | n_drop d : reach d f -> (exists o, edge f d o) -> news f st [Drop f d].
  Lemma news_about : forall f st l e g, news f st l -> In e l -> about e = Some g -> g = f.
  Proof. intros f st l e g H K A. destruct H; cbn [In] in K; repeat match type of K with _ \/ _ => destruct K as [<-|K]; [cbn in A; congruence|] end; contradiction. Qed.
  Lemma news_events : forall f st l d e, news f st l -> d <> f -> about e = Some d -> In e (l ++ s_trace st) -> In e (s_trace st).
  Proof. intros f st l d e H N A K. apply in_app_or in K. destruct K as [K|K]; [|exact K]. exfalso. apply N. exact (news_about f st l e d H K A). Qed.
  Lemma app_start : forall (l tr t2 : list event) f t1, l ++ tr = t2 ++ f :: t1 -> (exists l', l = t2 ++ f :: l' /\ t1 = l' ++ tr) \/ exists t2', tr = t2' ++ f :: t1.
  Proof.
    intros l. induction l as [|e l IH]; intros tr t2 f t1 H; [right; exists t2; exact H|]. destruct t2 as [|e2 t2]; cbn [app] in H.
    - injection H as <- <-. left. exists l. split; reflexivity.
    - injection H as <- H. destruct (IH tr t2 f t1 H) as [(l' & -> & ->)|K]; [left; exists l'; split; reflexivity|right; exact K].
  Qed.
  Lemma news_need : forall f st l t2 e g l', news f st l -> l = t2 ++ e :: l' -> e = Start g \/ e = NoRule g -> g = f /\ l' = [] /\ (own -> how = Normal -> allowed st f).
  Proof.
    intros f st l t2 e g l' H E EG. destruct H as [|ok Z|Z D R N|NM Z R A N|DD NN A|d R X].
    - destruct t2; discriminate.
    - destruct t2 as [|? [|? ?]]; try discriminate. injection E as <- <-. destruct EG; discriminate.
    - destruct t2 as [|? [|? [|? ?]]]; try discriminate; injection E; intros; subst; destruct EG as [EG|EG]; try discriminate. injection EG as <-. split; [reflexivity|]. split; [reflexivity|congruence].
    - destruct t2 as [|? [|? ?]]; try discriminate. injection E as <- <-. destruct EG as [EG|EG]; [injection EG as <-|discriminate]. auto.
    - destruct t2 as [|? [|? ?]]; try discriminate. injection E as <- <-. destruct EG as [EG|EG]; [discriminate|injection EG as <-]. auto.
    - destruct t2 as [|? [|? ?]]; try discriminate. injection E as <- <-. destruct EG; discriminate.
  Qed.
  Lemma news_end : forall f st l t2 g ok l', news f st l -> l = t2 ++ Finish g ok :: l' -> In (Start g) (l' ++ s_trace st).
  Proof.
    intros f st l t2 g ok l' H E. destruct H as [|ok0 Z|Z D R N|NM Z R A N|DD NN A|d R X].
    - destruct t2; discriminate.
    - destruct t2 as [|? [|? ?]]; try discriminate. injection E as <- _ <-. exact Z.
    - destruct t2 as [|? [|? [|? ?]]]; try discriminate. injection E as <- _ <-. left. reflexivity.
    - destruct t2 as [|? [|? ?]]; discriminate.
    - destruct t2 as [|? [|? ?]]; discriminate.
    - destruct t2 as [|? [|? ?]]; discriminate.
  Qed.
  Lemma news_start : forall f st l t2 g l', news f st l -> l = t2 ++ Start g :: l' -> g = f /\ l' = [] /\ ready st f.
  Proof.
    intros f st l t2 g l' H E. destruct H as [|ok Z|Z D R N|NM Z R A N|DD NN A|d R X].
    - destruct t2; discriminate.
    - destruct t2 as [|? [|? ?]]; discriminate.
    - destruct t2 as [|? [|? [|? ?]]]; try discriminate. injection E as _ <- <-. auto.
    - destruct t2 as [|? [|? ?]]; try discriminate. injection E as <- <-. auto.
    - destruct t2 as [|? [|? ?]]; discriminate.
    - destruct t2 as [|? [|? ?]]; discriminate.
  Qed.
  Lemma finishes_app : forall a b, finishes (a ++ b) = finishes a ++ finishes b.
  Proof. intros a b. induction a as [|[] a IH]; cbn [app finishes]; rewrite ?IH; reflexivity. Qed.
  Lemma finishes_in : forall tr f, In f (finishes tr) <-> exists ok, In (Finish f ok) tr.
  Proof.
    intros tr f. induction tr as [|e tr IH]; cbn [finishes In]; [split; [intros []|intros (ok & [])]|]. destruct e; cbn [In]; rewrite IH.
    - split; intros (ok & H); exists ok; [auto|destruct H as [H|H]; [discriminate|exact H]].
    - split; [intros [<-|(ok' & H)]; [exists ok; auto|exists ok'; auto]|]. intros (ok' & [H|H]); [injection H as -> _; auto|right; exists ok'; exact H].
    - split; intros (ok & H); exists ok; [auto|destruct H as [H|H]; [discriminate|exact H]].
    - split; intros (ok & H); exists ok; [auto|destruct H as [H|H]; [discriminate|exact H]].
  Qed.
  Lemma work_app : forall a b, work (a ++ b) = work a + work b.
  Proof. intros a b. unfold work. rewrite starts_app, finishes_app, !app_length. lia. Qed.
  Lemma GI_step : forall f l st st', Inv st -> (f_updated (s_files st f) = false \/ exists d, l = [Drop f d]) -> news f st l -> s_trace st' = l ++ s_trace st ->
    (forall g, f_updated (s_files st g) = true -> f_updated (s_files st' g) = true /\ f_status (s_files st' g) = f_status (s_files st g)) -> NoDup (s_jobs st') -> (how <> Normal -> s_jobs st' = []) ->
    (how = Normal -> s_clock st' = s_clock st + work l) -> (how <> Normal -> how <> Touch -> s_disk st' = s_disk st) -> GI st'.
  Proof.
    intros f l st st' [I GG] U N T MU ND MO CK DQ. pose proof (I f) as FF.
    assert (NF : (exists d, l = [Drop f d]) \/ ~ In f (finishes (s_trace st))). { destruct U as [U|U]; [right|left; exact U]. rewrite finishes_in. intros (ok & K). destruct (fi_finish _ _ FF ok K). congruence. }
    assert (EV : forall d e, f_updated (s_files st d) = true -> about e = Some d -> In e (l ++ s_trace st) -> In e (s_trace st)).
    { intros d e UD A K. destruct U as [U|(d0 & ->)]; [|destruct K as [<-|K]; [discriminate A|exact K]]. apply (news_events f st l d e N); auto. intros ->. congruence. }
    destruct GG. split; try assumption; rewrite ?T.
    - intros A B. rewrite (DQ A B). exact (gi_still0 A B).
    - intros A g K. apply in_app_or in K. destruct K as [K|K]; [|exact (gi_ask0 A g K)]. destruct N as [|ok Z|Z D R N|NM Z R A0 N|DD NN A0|d R X]; cbn [In] in K; repeat match type of K with _ \/ _ => destruct K as [K|K]; try discriminate end; try contradiction; destruct A; congruence.
    - rewrite starts_app. destruct N as [|ok Z|Z D R N|NM Z R A N|DD NN A|d R X]; cbn [starts app]; try assumption; constructor; try assumption; rewrite starts_in; exact N.
    - destruct gi_ends0 as [E1 E2]. split.
      + rewrite finishes_app. destruct N as [|ok Z|Z D R N|NM Z R A N|DD NN A|d R X]; cbn [finishes app]; try exact E1; destruct NF as [(d & K)|NF]; try discriminate; constructor; assumption.
      + intros t2 g ok t1 E. apply app_start in E. destruct E as [(l' & E & ->)|(t2' & E)]; [exact (news_end f st l t2 g ok l' N E)|exact (E2 t2' g ok t1 E)].
    - intros g K. apply in_app_or in K. destruct K as [K|K]; [|exact (gi_dom0 g K)]. destruct N as [|ok Z|Z D R N|NM Z R A N|DD NN A|d R X]; cbn [In] in K; repeat match type of K with _ \/ _ => destruct K as [K|K]; try discriminate end; try contradiction; injection K as <-; exact Z.
    - intros g K. apply in_app_or in K. destruct K as [K|K]; [|exact (gi_norule0 g K)]. destruct N as [|ok Z|Z D R N|NM Z R A N|DD NN A|d R X]; cbn [In] in K; repeat match type of K with _ \/ _ => destruct K as [K|K]; try discriminate end; try contradiction; injection K as <-; auto.
    - intros M. rewrite (CK M), (gi_clock0 M), work_app. lia.
    - intros t2 g t1 d o E D. apply app_start in E. destruct E as [(l' & E & ->)|(t2' & E)].
      + destruct (news_start f st l t2 g l' N E) as (-> & -> & R). cbn [app]. destruct (R d o D) as [K|[K1 K2]]; [left; exact K|right]. destruct (MU d K1) as [K3 K4]. split; [split; [exact K3|congruence]|].
        apply before_now; [exact (I d)|exact K1|exact K2|]. intros e A K. exact (EV d e K1 A K).
      + destruct (gi_order0 t2' g t1 d o E D) as [K|[[K1 K3] K2]]; [left; exact K|right]. destruct (MU d K1) as [K4 K5]. split; [split; [exact K4|congruence]|]. apply (before_ext _ _ _ _ K2). intros e A K. exact (EV d e K1 A K).
    - intros O H t2 e g t1 E EG. apply app_start in E. destruct E as [(l' & E & ->)|(t2' & E)].
      + destruct (news_need f st l t2 e g l' N E EG) as (-> & -> & A). exact (A O H).
      + exact (gi_need0 O H t2' e g t1 E EG).
    - intros g d K. apply in_app_or in K. destruct K as [K|K]; [|exact (gi_drop0 g d K)]. destruct N as [|ok Z|Z D R N|NM Z R A N|DD NN A|d0 R X]; cbn [In] in K; repeat match type of K with _ \/ _ => destruct K as [K|K]; try discriminate end; try contradiction.
      injection K as <- <-. auto.
  Qed.

  (** [f] is settled. *)
  Record settled (f : nat) (l : list event) (st st' : state) : Prop := mksettled {
    se_upd : f_updated (s_files st f) = false;
    se_news : news f st l;
    se_trace : s_trace st' = l ++ s_trace st;
    se_other : forall n, n <> f -> s_files st' n = s_files st n;
    se_deps : f_deps (s_files st' f) = f_deps (s_files st f);
    se_cons : f_considered (s_files st' f) = f_considered (s_files st f);
    se_inter : f_intermediate (s_files st' f) = f_intermediate (s_files st f);
    se_tried : f_tried (s_files st' f) = f_tried (s_files st f);
    se_state : f_state (s_files st' f) = Finished;
    se_updated : f_updated (s_files st' f) = true;
    se_jobs : forall n, In n (s_jobs st') <-> In n (s_jobs st) /\ n <> f;
    se_nodup : NoDup (s_jobs st');
    se_disk : own -> forall n, n <> f -> s_disk st' n = s_disk st n;
    se_pass : s_pass st' = s_pass st;
    se_clock : s_clock st <= s_clock st';
    se_work : how = Normal -> s_clock st' = s_clock st + work l;
    se_still : how <> Normal -> how <> Touch -> s_disk st' = s_disk st }.
  Lemma settled_ext : forall f l st st', Inv st -> settled f l st st' -> ext st st'.
  Proof.
    intros f l st st' I []. split; try assumption.
    - exists l. exact se_trace0.
    - intros g U. destruct (Nat.eq_dec g f) as [->|N]; [congruence|]. rewrite (se_other0 g N). auto.
    - intros g m U. destruct (Nat.eq_dec g f) as [->|N]; [congruence|]. rewrite (se_other0 g N). auto.
    - intros g [A B]. destruct (Nat.eq_dec g f) as [->|N]; [|unfold Q; rewrite (se_other0 g N); split; assumption]. split; [congruence|]. right. right. exact se_state0.
    - intros g. destruct (Nat.eq_dec g f) as [->|N]; [congruence|]. rewrite (se_other0 g N). auto.
    - intros O g U. apply (se_disk0 O). intros ->. congruence.
  Qed.
  Lemma settled_GI : forall f l st st', Inv st -> settled f l st st' -> GI st'.
  Proof.
    intros f l st st' I SE. pose proof (settled_ext f l st st' I SE) as E. destruct SE. apply (GI_step f l st st'); auto.
    - exact (ex_upd _ _ E).
    - intros M. pose proof (gi_mode _ (proj2 I) M) as J. destruct (s_jobs st') as [|j js] eqn:JJ; [reflexivity|]. exfalso. destruct (proj1 (se_jobs0 j) (or_introl eq_refl)) as [K _]. rewrite J in K. exact K.
  Qed.
  Lemma settled_inv : forall f l st st', Inv st -> settled f l st st' ->
    f_status (s_files st' f) <> NoAttempt ->
    (In (Start f) (l ++ s_trace st) -> exists ok, In (Finish f ok) l) ->
    (phony f = true -> f_mtime (s_files st' f) = Some Absent) ->
    (forall ok, In (Finish f ok) l -> f_status (s_files st' f) = (if ok then Success else Failed)) ->
    (In (NoRule f) l -> f_status (s_files st' f) = Failed) ->
    (own -> how <> Touch -> (forall ok, ~ In (Finish f ok) l) -> s_disk st' f = s_disk st f) ->
    (own -> how = Normal -> forall m, f_mtime (s_files st' f) = Some m -> phony f = true \/ m = s_disk st' f) ->
    (f_status (s_files st' f) = Success -> forall d, In d (f_deps (s_files st f)) -> inter (d_file d) = false \/ phony (d_file d) = true -> f_updated (s_files st (d_file d)) = true /\ f_status (s_files st (d_file d)) = Success) ->
    (forall d, In d (f_deps (s_files st f)) -> f_intermediate (s_files st f) = true \/ inter (d_file d) = false \/ phony (d_file d) = true -> f_updated (s_files st (d_file d)) = true) ->
    (bad (f_status (s_files st' f)) = true -> how = Ask \/ how = Touch \/ hopeless (l ++ s_trace st) f) ->
    (keep_going = false -> how = Normal \/ how = Dry -> f_status (s_files st' f) = Success) ->
    (own -> stamps -> how = Normal -> In (Finish f true) l -> forall d o, edge f d o -> In (Drop f d) (s_trace st) \/ (f_updated (s_files st d) = true /\ newer (s_disk st d) (s_disk st' f) = false)) ->
    (how <> Touch -> f_status (s_files st' f) = Success -> passive f (l ++ s_trace st) ->
      exists m, f_mtime (s_files st' f) = Some m /\ m <> Absent /\ forall d, In d (f_deps (s_files st f)) -> d_order d = false -> inter (d_file d) = false \/ phony (d_file d) = true ->
        f_updated (s_files st (d_file d)) = true /\ exists md, f_mtime (s_files st (d_file d)) = Some md /\ md <> Absent /\ newer md m = false) ->
    (how = Dry \/ how = Ask -> forall m, f_mtime (s_files st' f) = Some m -> phony f = true \/ m = disk f \/ (m = New /\ cmds f = true /\ (blank f = true \/ In (Start f) (l ++ s_trace st)))) ->
    (how = Dry -> phony f = false -> In (Start f) (l ++ s_trace st) -> f_mtime (s_files st' f) = Some New) ->
    Inv st' /\ ext st st'.
  Proof.
    intros f l st st' I SE H1 H2 H3 H4 H5 H6 H7 H8 H9 H10 H11 H13 H12 H14 H15. pose proof (settled_ext f l st st' I SE) as E. pose proof (settled_GI f l st st' I SE) as GG. split; [|exact E]. split; [|exact GG].
    destruct SE. intros g. destruct (Nat.eq_dec g f) as [->|N].
    - pose proof (proj1 I f) as F. destruct F. split; rewrite ?se_trace0, ?se_deps0, ?se_cons0, ?se_inter0, ?se_tried0, ?se_state0, ?se_updated0, ?se_pass0; try assumption; try congruence; auto.
      + split; [|congruence]. intros K. apply se_jobs0 in K. destruct K. contradiction.
      + split; auto.
      + intros K. right. split; [reflexivity|]. destruct (H2 K) as (ok & O). exists ok. apply in_or_app. left. exact O.
      + intros ok K. split; [reflexivity|]. apply in_app_or in K. destruct K as [K|K]; [exact (H4 ok K)|]. destruct (fi_finish0 ok K). congruence.
      + intros K. split; [reflexivity|]. apply in_app_or in K. destruct K as [K|K]; [exact (H5 K)|]. destruct (fi_norule0 K). congruence.
      + intros d o K. destruct (fi_kept0 d o K) as [Z|Z]; [left; exact Z|right; apply in_or_app; right; exact Z].
      + intros O M K. rewrite H6; [|exact O|exact M|intros ok Z; apply (K ok); apply in_or_app; left; exact Z]. apply fi_disk3; [exact O|exact se_upd0].
      + intros [[_ S0]|R]; [|discriminate]. intros d D K. destruct (H8 S0 d D K) as [A B]. destruct (ex_upd _ _ E _ A) as [A' B']. split; [exact A'|congruence].
      + intros _ d D K. apply (ex_upd _ _ E). exact (H9 d D K).
      + intros O STA M K d o D. apply in_app_or in K. destruct K as [K|K]; [|destruct (fi_finish0 true K); congruence]. destruct (H13 O STA M K d o D) as [Z|[Z1 Z2]]; [left; apply in_or_app; right; exact Z|right]. split; [exact (proj1 (ex_upd _ _ E _ Z1))|]. rewrite (ex_disk _ _ E O d Z1). exact Z2.
      + intros M _ S0 K. destruct (H12 M S0 K) as (m & MM & NA & Z). exists m. split; [exact MM|]. split; [exact NA|]. intros d D O X. destruct (Z d D O X) as (A & md & A' & B' & C'). split; [exact (proj1 (ex_upd _ _ E _ A))|]. exists md. split; [exact (ex_mtime _ _ E _ _ A A')|auto].
    - apply (FI_mono st st' g E); [|exact (proj1 I g)]. split; [exact (se_other0 g N)| | |intros O; exact (se_disk0 O g N)].
      + rewrite se_jobs0. split; [intros [A _]; exact A|auto].
      + intros e A K. rewrite se_trace0 in K. exact (news_events f st l g e se_news0 N A K).
  Qed.


  Notation notice := (notice_finished_file phony is_target cmds double base chain how world).
  Notation noticed := (noticed phony cmds how world).
  Definition notice_noticed := notice_noticed phony is_target cmds double how world.
  Record prep (f : nat) (l : list event) (st st1 : state) : Prop := mkprep {
    pr_upd : f_updated (s_files st f) = false;
    pr_news : news f st l;
    pr_other : forall n, n <> f -> s_files st1 n = s_files st n;
    pr_deps : f_deps (s_files st1 f) = f_deps (s_files st f);
    pr_cons : f_considered (s_files st1 f) = f_considered (s_files st f);
    pr_updating : f_updating (s_files st1 f) = f_updating (s_files st f);
    pr_inter : f_intermediate (s_files st1 f) = f_intermediate (s_files st f);
    pr_tried : f_tried (s_files st1 f) = f_tried (s_files st f);
    pr_mtime : f_mtime (s_files st1 f) = f_mtime (s_files st f);
    pr_trace : s_trace st1 = l ++ s_trace st;
    pr_jobs : forall n, In n (s_jobs st1) <-> In n (s_jobs st) /\ n <> f;
    pr_nodup : NoDup (s_jobs st1);
    pr_pass : s_pass st1 = s_pass st;
    pr_clock : s_clock st <= s_clock st1;
    pr_work : how = Normal -> s_clock st1 = s_clock st + work l;
    pr_disk : own -> forall n, n <> f -> s_disk st1 n = s_disk st n;
    pr_still : how <> Normal -> how <> Touch -> s_disk st1 = s_disk st }.
  Lemma prep_settled : forall f l st st1 st', prep f l st st1 -> noticed f st1 st' -> settled f l st st'.
  Proof.
    intros f l st st1 st' [] []. split; try assumption; try congruence.
    - intros n N. rewrite (no_other n N). apply pr_other0. exact N.
    - intros n. rewrite no_jobs. apply pr_jobs0.
    - intros O n N. rewrite (no_disk O n N). apply pr_disk0; assumption.
    - lia.
    - intros M. rewrite no_quiet by congruence. exact (pr_work0 M).
    - intros A B. rewrite no_disk2 by (left; exact B). exact (pr_still0 A B).
  Qed.
  Lemma jobs_nin : forall st f, FI st f -> f_state (s_files st f) <> Running -> forall n, In n (s_jobs st) <-> In n (s_jobs st) /\ n <> f.
  Proof. intros st f F R n. split; [|intros [H _]; exact H]. intros H. split; [exact H|]. intros ->. apply R. apply (fi_jobs _ _ F). exact H. Qed.
  Lemma NoDup_remove_all : forall (l : list nat) f, NoDup l -> NoDup (remove Nat.eq_dec f l).
  Proof.
    intros l f. induction l as [|a l IH]; intros H; [exact H|]. inversion H as [|? ? H1 H2]; subst. cbn [remove]. destruct (Nat.eq_dec f a); [exact (IH H2)|]. constructor; [|exact (IH H2)]. intros K. apply in_remove in K. exact (H1 (proj1 K)).
  Qed.

  (** What one step of the reaping, or many, leaves. *)
  Record reaped (st st' : state) : Prop := mkreaped {
    re_inv : Inv st';
    re_ext : ext st st';
    re_same : forall g, f_state (s_files st g) <> Running -> s_files st' g = s_files st g;
    re_deps : forall g, f_deps (s_files st' g) = f_deps (s_files st g);
    re_cons : forall g, f_considered (s_files st' g) = f_considered (s_files st g);
    re_updating : forall g, f_updating (s_files st' g) = f_updating (s_files st g);
    re_run : forall g, f_state (s_files st g) = Running -> f_state (s_files st' g) = Running \/ f_state (s_files st' g) = Finished;
    re_nothing : s_jobs st = [] -> st' = st;
    re_quiet : s_clock st' = s_clock st -> st' = st;
    re_starts : forall g, In (Start g) (s_trace st') -> In (Start g) (s_trace st) }.
  Lemma reaped_refl : forall st, Inv st -> reaped st st.
  Proof. intros st I. split; auto. apply ext_refl. Qed.
  Lemma reaped_trans : forall a b c, reaped a b -> reaped b c -> reaped a c.
  Proof.
    intros a b c A B. destruct A, B. split; auto.
    - exact (ext_trans _ _ _ re_ext0 re_ext1).
    - intros g H. pose proof (re_same0 g H) as K. rewrite (re_same1 g); [exact K|rewrite K; exact H].
    - intros g. rewrite re_deps1. apply re_deps0.
    - intros g. rewrite re_cons1. apply re_cons0.
    - intros g. rewrite re_updating1. apply re_updating0.
    - intros g H. destruct (re_run0 g H) as [K|K]; [exact (re_run1 g K)|]. right. rewrite re_same1; congruence.
    - intros H. pose proof (re_nothing0 H) as ->. apply re_nothing1. exact H.
    - intros H. pose proof (ex_clock _ _ re_ext0). pose proof (ex_clock _ _ re_ext1). assert (b = a) as -> by (apply re_quiet0; lia). apply re_quiet1. exact H.
  Qed.
  Definition post {A} (r : res A) (R : A -> state -> Prop) : Prop := match r with Ok a st => R a st | Die st => Dead st | Out => False end.
  Lemma post_bind : forall A B (r : res A) (k : A -> state -> res B) R R', post r R -> (forall a st, R a st -> post (k a st) R') -> post (bind r k) R'.
  Proof. intros A B [a st|st|] k R R' H K; cbn in *; auto. Qed.
  Lemma post_weak : forall A (r : res A) (R R' : A -> state -> Prop), post r R -> (forall a st, R a st -> R' a st) -> post r R'.
  Proof. intros A [a st|st|] R R' H K; cbn in *; auto. Qed.

  Lemma reap1_post : forall st, Inv st -> post (reap1 phony is_target cmds double base chain keep_going how world st) (fun _ st' => reaped st st' /\ (s_jobs st <> [] -> s_clock st < s_clock st')).
  Proof.
    intros st I. unfold reap1. destruct (s_jobs st) as [|j js] eqn:J; [cbn; split; [apply reaped_refl; exact I|intros K; contradiction]|]. rewrite <- J.
    set (t := world (s_clock st)). set (f := nth (t_pick t mod length (s_jobs st)) (s_jobs st) j).
    assert (FJ : In f (s_jobs st)). { apply nth_In. apply Nat.mod_upper_bound. rewrite J. discriminate. } clearbody f.
    pose proof (proj1 I f) as F. pose proof (proj1 (fi_jobs _ _ F) FJ) as R.
    assert (U : f_updated (s_files st f) = false). { destruct (f_updated (s_files st f)) eqn:U; [|reflexivity]. destruct (fi_idle _ _ F U); congruence. }
    destruct (fi_running _ _ F R) as [SF CF].
    assert (HN : how = Normal). { assert (K : forall m : mode, m = Normal \/ m <> Normal) by (intros []; auto; right; discriminate). destruct (K how) as [K1|K1]; [exact K1|]. rewrite (gi_mode _ (proj2 I) K1) in J. discriminate J. }
    set (st1 := mkstate (s_files st) (t_effect t f (s_disk st)) (remove Nat.eq_dec f (s_jobs st)) (S (s_clock st)) (Finish f (t_ok t) :: s_trace st) (s_pass st)).
    set (u := if t_ok t then Success else Failed).
    pose proof (upd_chg f (with_status u) st1) as C. set (st2 := upd f (with_status u) st1) in *. destruct C. cbn [st1 s_files] in *.
    pose proof (notice_noticed f st2) as NO. set (st' := notice f st2) in *.
    assert (PR : prep f [Finish f (t_ok t)] st st2).
    { split; rewrite ?ch_self0; try reflexivity; try assumption.
      - apply n_finish. exact SF.
      - intros n. cbn [st2 upd s_jobs st1]. split; [intros H; apply in_remove in H; exact H|intros [A B]; apply in_in_remove; assumption].
      - cbn [st2 upd s_jobs st1]. apply NoDup_remove_all. exact (gi_nodup _ (proj2 I)).
      - cbn [st2 upd s_clock st1]. lia.
      - intros _. cbn. lia.
      - intros O n N. apply O. exact N.
      - congruence. }
    pose proof (prep_settled _ _ _ _ _ PR NO) as SE.
    assert (ST : f_status (s_files st' f) = u). { rewrite (no_status2 _ _ _ _ _ _ _ NO); [|left; congruence]. rewrite ch_self0. cbn [with_status f_status]. unfold u. destruct (t_ok t); reflexivity. }
    assert (CLK : s_clock st' = S (s_clock st)). { rewrite (no_quiet _ _ _ _ _ _ _ NO); [reflexivity|congruence]. }
    destruct (t_ok t || keep_going) eqn:OK; cbn [post]; [|apply Bool.orb_false_iff in OK; destruct OK as [OK KG]; apply (GI_dead st f (Finish f false) st' I U); auto; [rewrite (se_trace _ _ _ _ SE), OK; reflexivity|exact (settled_GI f _ st st' I SE)]].
    destruct (settled_inv f [Finish f (t_ok t)] st st' I SE) as [I' E].
    + rewrite ST. unfold u. destruct (t_ok t); discriminate.
    + intros _. exists (t_ok t). left. reflexivity.
    + intros PH. rewrite (no_phony _ _ _ _ _ _ _ NO PH), ch_self0. exact (fi_phony _ _ F PH).
    + intros ok [K|[]]. injection K as <-. exact ST.
    + intros [K|[]]. discriminate.
    + intros _ _ K. exfalso. apply (K (t_ok t)). left. reflexivity.
    + intros O N m K. destruct (phony f) eqn:PH; [left; reflexivity|]. rewrite (no_ran _ _ _ _ _ _ _ NO) in K; try assumption; [discriminate|]. rewrite ch_self0. exact R.
    + intros _. exact (fi_good _ _ F (or_intror R)).
    + exact (fi_all _ _ F (or_intror R)).
    + intros B. right. right. apply h_failed. left. rewrite ST in B. unfold u in B. destruct (t_ok t); [discriminate|reflexivity].
    + intros K _. rewrite K, Bool.orb_false_r in OK. rewrite ST. unfold u. rewrite OK. reflexivity.
    + intros O STA _ [K|[]] d o D. injection K as K. apply in_split in SF. destruct SF as (t2 & t1 & T). destruct (gi_order _ (proj2 I) t2 f t1 d o T D) as [Z|[[Z _] _]]; [left; rewrite T; apply in_or_app; right; right; exact Z|right]. split; [exact Z|].
      rewrite (no_disk2 _ _ _ _ _ _ _ NO); [|left; congruence]. exact (STA (s_clock st) f (s_disk st) d K).
    + intros _ _ [(_ & _ & K)|(K & _)]; [|congruence]. exfalso. apply K. right. exact SF.
    + intros [K|K]; congruence.
    + congruence.
    + assert (OT : forall g, g <> f -> s_files st' g = s_files st g) by exact (se_other _ _ _ _ SE).
      split; [|intros _; lia]. split; try assumption.
      * intros g K. apply OT. intros ->. contradiction.
      * intros g. destruct (Nat.eq_dec g f) as [->|N]; [|rewrite (OT g N); reflexivity]. exact (se_deps _ _ _ _ SE).
      * intros g. destruct (Nat.eq_dec g f) as [->|N]; [|rewrite (OT g N); reflexivity]. exact (se_cons _ _ _ _ SE).
      * intros g. destruct (Nat.eq_dec g f) as [->|N]; [|rewrite (OT g N); reflexivity]. rewrite (no_updating _ _ _ _ _ _ _ NO), ch_self0. reflexivity.
      * intros g K. destruct (Nat.eq_dec g f) as [->|N]; [right; exact (se_state _ _ _ _ SE)|left; rewrite (OT g N); exact K].
      * congruence.
      * lia.
      * intros g K. rewrite (se_trace _ _ _ _ SE) in K. destruct K as [K|K]; [discriminate|exact K].
  Qed.
  Lemma reaps_post : forall n st, Inv st -> post (reaps phony is_target cmds double base chain keep_going how world n st) (fun _ st' => reaped st st').
  Proof.
    intros n. induction n as [|n IH]; intros st I; cbn [reaps]; [apply reaped_refl; exact I|]. apply (post_bind _ _ _ _ _ _ (reap1_post st I)). intros _ st1 [R1 _].
    apply (post_weak _ _ _ _ (IH st1 (re_inv _ _ R1))). intros _ st2 R2. exact (reaped_trans _ _ _ R1 R2).
  Qed.

  Lemma reaps_more : forall n st, Inv st -> post (reaps phony is_target cmds double base chain keep_going how world (S n) st) (fun _ st' => reaped st st' /\ (s_jobs st <> [] -> s_clock st < s_clock st')).
  Proof.
    intros n st I. cbn [reaps]. apply (post_bind _ _ _ _ _ _ (reap1_post st I)). intros _ st1 [R1 M1].
    apply (post_weak _ _ _ _ (reaps_post n st1 (re_inv _ _ R1))). intros _ st2 R2. split; [exact (reaped_trans _ _ _ R1 R2)|]. intros K. pose proof (M1 K). pose proof (ex_clock _ _ (re_ext _ _ R2)). lia.
  Qed.

  (** The recipe of [f] is started. *)
  Lemma started_inv : forall f st, Inv st -> runs f -> how = Normal -> f_updated (s_files st f) = false -> f_state (s_files st f) <> Running -> cmds f = true -> ready st f -> (own -> how = Normal -> allowed st f) ->
    (forall d, In d (f_deps (s_files st f)) -> f_updated (s_files st (d_file d)) = true /\ f_status (s_files st (d_file d)) = Success) ->
    let st1 := emit (Start f) (upd f (with_state Running) st) in
    let st' := mkstate (s_files st1) (s_disk st1) (s_jobs st1 ++ [f]) (S (s_clock st1)) (s_trace st1) (s_pass st1) in
    Inv st' /\ ext st st'.
  Proof.
    intros f st I DO HN U R CM RD AL GD st1 st'.
    pose proof (proj1 I f) as F.
    assert (NS : ~ In (Start f) (s_trace st)). { intros K. destruct (fi_started _ _ F K) as [Z|[Z _]]; congruence. }
    assert (SELF : s_files st' f = with_state Running (s_files st f)). { cbn. rewrite Nat.eqb_refl. reflexivity. }
    assert (OT : forall n, n <> f -> s_files st' n = s_files st n). { intros n N. cbn. apply Nat.eqb_neq in N. rewrite N. reflexivity. }
    assert (JO : forall n, In n (s_jobs st') <-> In n (s_jobs st) \/ n = f). { intros n. cbn. rewrite in_app_iff. cbn [In]. split; intros [H|H]; auto. destruct H as [H|[]]; auto. }
    assert (TR : s_trace st' = [Start f] ++ s_trace st) by reflexivity.
    assert (N : news f st [Start f]) by (apply n_start; assumption).
    assert (E : ext st st').
    { split; try reflexivity; [|..|cbn; lia].
      - exists [Start f]. exact TR.
      - intros g Z. destruct (Nat.eq_dec g f) as [->|K]; [congruence|]. rewrite (OT g K). auto.
      - intros g m Z. destruct (Nat.eq_dec g f) as [->|K]; [congruence|]. rewrite (OT g K). auto.
      - intros g [A B]. destruct (Nat.eq_dec g f) as [->|K]; [|unfold Q; rewrite (OT g K); split; assumption]. unfold Q. rewrite SELF. split; [exact A|]. right. left. reflexivity.
      - intros g. destruct (Nat.eq_dec g f) as [->|K]; [rewrite SELF; auto|]. rewrite (OT g K). auto. }
    split; [|exact E]. split.
    - intros g. destruct (Nat.eq_dec g f) as [->|K].
      + destruct F. split; rewrite ?SELF; cbn [with_state f_state f_deps f_mtime f_updated f_status f_considered f_intermediate f_tried]; try assumption; try congruence; rewrite ?TR.
        * rewrite JO. split; auto.
        * intros _. left. reflexivity.
        * intros _. split; [left; reflexivity|exact CM].
        * intros ok [Z|Z]; [discriminate|exact (fi_finish0 ok Z)].
        * intros [Z|Z]; [discriminate|exact (fi_norule0 Z)].
        * intros d o Z. destruct (fi_kept0 d o Z) as [Y|Y]; [left; exact Y|right; right; exact Y].
        * intros O M Z. apply (fi_disk0 O M). intros ok Y. apply (Z ok). right. exact Y.
        * intros _ d D _. destruct (GD d D) as [A B]. destruct (ex_upd _ _ E _ A) as [A' B']. split; [exact A'|congruence].
        * intros _ d D _. apply (ex_upd _ _ E). apply GD. exact D.
        * intros _ _ _ [Z|Z]; [discriminate|]. destruct (fi_finish0 true Z). congruence.
        * intros [Z|Z]; congruence.
      + apply (FI_mono st st' g E); [|exact (proj1 I g)]. split; [exact (OT g K)|rewrite JO; split; [intros [H|H]; [exact H|contradiction]|auto]| |reflexivity].
        intros e A Z. rewrite TR in Z. exact (news_events f st _ g e N K A Z).
    - apply (GI_step f [Start f] st st' I (or_introl U) N TR).
      + exact (ex_upd _ _ E).
      + cbn [st' st1 emit upd s_jobs]. pose proof (gi_nodup _ (proj2 I)) as ND. assert (NJ : ~ In f (s_jobs st)) by (intros K; apply R; apply (fi_jobs _ _ F); exact K).
        clear - ND NJ. induction (s_jobs st) as [|a l IH]; cbn [app]; [constructor; [intros []|constructor]|]. inversion ND; subst. constructor; [|apply IH; auto; intros K; apply NJ; right; exact K]. rewrite in_app_iff. intros [K|[K|[]]]; [contradiction|]. apply NJ. left. symmetry. exact K.
      + congruence.
      + intros _. cbn. lia.
      + congruence.
  Qed.

  (** The remaking of [f]. *)
  Record made (f : nat) (st st' : state) : Prop := mkmade {
    ma_inv : Inv st';
    ma_ext : ext st st';
    ma_same : forall g, g <> f -> f_state (s_files st g) <> Running -> s_files st' g = s_files st g;
    ma_deps : forall g, f_deps (s_files st' g) = f_deps (s_files st g);
    ma_cons : forall g, f_considered (s_files st' g) = f_considered (s_files st g);
    ma_updating : forall g, f_updating (s_files st' g) = f_updating (s_files st g);
    ma_run : forall g, f_state (s_files st g) = Running -> f_state (s_files st' g) = Running \/ f_state (s_files st' g) = Finished;
    ma_self : f_state (s_files st' f) = Running \/ f_state (s_files st' f) = Finished;
    ma_quiet : how <> Normal \/ s_clock st' = s_clock st -> f_state (s_files st' f) = Finished /\ (forall g, g <> f -> s_files st' g = s_files st g) /\ s_jobs st' = s_jobs st }.
  Lemma settled_made : forall f l st st1 st', prep f l st st1 -> s_jobs st1 = s_jobs st -> noticed f st1 st' -> Inv st' -> f_state (s_files st f) <> Running -> ext st st' -> made f st st'.
  Proof.
    intros f l st st1 st' PR J NO I' R E. pose proof (prep_settled _ _ _ _ _ PR NO) as SE.
    assert (OT : forall g, g <> f -> s_files st' g = s_files st g) by exact (se_other _ _ _ _ SE).
    split; auto.
    - intros g. destruct (Nat.eq_dec g f) as [->|N]; [|rewrite (OT g N); reflexivity]. exact (se_deps _ _ _ _ SE).
    - intros g. destruct (Nat.eq_dec g f) as [->|N]; [|rewrite (OT g N); reflexivity]. exact (se_cons _ _ _ _ SE).
    - intros g. destruct (Nat.eq_dec g f) as [->|N]; [|rewrite (OT g N); reflexivity]. rewrite (no_updating _ _ _ _ _ _ _ NO). exact (pr_updating _ _ _ _ PR).
    - intros g K. destruct (Nat.eq_dec g f) as [->|N]; [contradiction|left; rewrite (OT g N); exact K].
    - right. exact (se_state _ _ _ _ SE).
    - intros _. split; [exact (se_state _ _ _ _ SE)|]. split; [exact OT|]. rewrite (no_jobs _ _ _ _ _ _ _ NO). exact J.
  Qed.
  Lemma remake_post : forall f st, Inv st -> dom f -> f_updated (s_files st f) = false -> f_state (s_files st f) = NotStarted -> (own -> how = Normal -> allowed st f) ->
    (forall d, In d (f_deps (s_files st f)) -> f_updated (s_files st (d_file d)) = true /\ f_status (s_files st (d_file d)) = Success) ->
    post (remake_file phony is_target cmds blank double base chain keep_going how world f st) (fun _ st' => made f st st').
  Proof.
    intros f st I DO U NS AL GD.
    pose proof (proj1 I f) as F. assert (R : f_state (s_files st f) <> Running) by congruence.
    assert (NST : ~ In (Start f) (s_trace st)). { intros K. destruct (fi_started _ _ F K) as [Z|[Z _]]; congruence. }
    assert (RD : ready st f). { intros d o D. destruct (fi_kept _ _ F d o D) as [(k & K & <- & <-)|K]; [right; exact (GD k K)|left; exact K]. }
    assert (NAT : f_status (s_files st f) = NoAttempt). { destruct (f_status (s_files st f)) eqn:Z; try reflexivity; rewrite (proj2 (fi_status _ _ F)) in U; congruence. }
    (* a state that is settled at once *)
    assert (ONE : forall l (h : file -> file) st0 u, news f st l -> s_files st0 = s_files st -> s_disk st0 = s_disk st -> s_jobs st0 = s_jobs st -> s_clock st0 = s_clock st -> s_pass st0 = s_pass st -> s_trace st0 = l ++ s_trace st ->
      (forall x, f_deps (h x) = f_deps x /\ f_considered (h x) = f_considered x /\ f_updating (h x) = f_updating x /\ f_intermediate (h x) = f_intermediate x /\ f_tried (h x) = f_tried x /\ f_mtime (h x) = f_mtime x /\ f_status (h x) = u) ->
      u <> NoAttempt -> ((exists ok, In (Finish f ok) l) \/ ~ In (Start f) l) -> (forall ok, In (Finish f ok) l -> u = (if ok then Success else Failed) /\ how <> Touch) -> (In (NoRule f) l -> u = Failed /\ cmds f = false) ->
      (f_state (h (s_files st f)) = Running -> cmds f = true) ->
      (bad u = true -> how = Ask \/ how = Touch \/ hopeless (l ++ s_trace st) f) ->
      (keep_going = false -> how = Normal \/ how = Dry -> u = Success) -> (how <> Touch -> cmds f = true -> blank f = true \/ In (Start f) l \/ u <> Success) -> (f_state (h (s_files st f)) = Running -> blank f = true \/ In (Start f) l) -> (In (Start f) l -> f_state (h (s_files st f)) = Running) -> (u = Success -> cmds f = false -> is_target f = false -> phony f = false -> False) ->
      (how = Normal -> work l = 0) -> made f st (notice f (upd f h st0))).
    { intros l h st0 u N HF HD HJ HC HP HT HH HU HS HFI HNR HRC HB HK HBL HDR HSR HX HW. pose proof (upd_chg f h st0) as C. set (st1 := upd f h st0) in *. destruct C. rewrite HF in *. rewrite HD, HJ, HC, HP, HT in *.
      destruct (HH (s_files st f)) as (H1 & H2 & H3 & H4 & H5 & H6 & H7). rewrite <- ch_self0 in H1, H2, H3, H4, H5, H6, H7, HRC, HDR, HSR.
      pose proof (notice_noticed f st1) as NO. set (st' := notice f st1) in *.
      assert (PR : prep f l st st1).
      { split; try assumption; rewrite ?ch_jobs0, ?ch_clock0, ?ch_disk0; auto; [exact (jobs_nin st f F R)|exact (gi_nodup _ (proj2 I))|intros M; rewrite (HW M); lia]. }
      pose proof (prep_settled _ _ _ _ _ PR NO) as SE.
      assert (ST : how <> Touch \/ cmds f = false \/ u <> Success -> f_status (s_files st' f) = u). { intros K. rewrite <- H7 in K. rewrite (no_status2 _ _ _ _ _ _ _ NO K), H7. destruct u; try reflexivity. congruence. }
      destruct (settled_inv f l st st' I SE) as [I' E].
      - exact (no_status _ _ _ _ _ _ _ NO).
      - intros K. destruct HS as [HS|HS]; [exact HS|]. apply in_app_or in K. destruct K as [K|K]; contradiction.
      - intros PH. rewrite (no_phony _ _ _ _ _ _ _ NO PH), H6. exact (fi_phony _ _ F PH).
      - intros ok K. destruct (HFI ok K) as [K1 K2]. rewrite ST; auto.
      - intros K. destruct (HNR K) as [-> K2]. apply ST. auto.
      - intros O NT _. rewrite (no_disk2 _ _ _ _ _ _ _ NO); [rewrite ch_disk0; reflexivity|left; exact NT].
      - intros O M m K. destruct (phony f) eqn:PH; [left; reflexivity|]. destruct (cs_eqb (f_state (s_files st1 f)) Running) eqn:RR.
        + apply cs_eqb_eq in RR. rewrite (no_ran _ _ _ _ _ _ _ NO M RR PH (HRC RR)) in K. discriminate.
        + apply cs_eqb_neq in RR. rewrite (no_idle _ _ _ _ _ _ _ NO), H6 in K; [|left; congruence|exact RR]. destruct (fi_cache _ _ F O M m K) as [Z|Z]; [congruence|right]. rewrite (no_disk2 _ _ _ _ _ _ _ NO); [rewrite ch_disk0; exact Z|left; congruence].
      - intros _ d D _. exact (GD d D).
      - intros d D _. exact (proj1 (GD d D)).
      - intros B. assert (K : how = Touch \/ how <> Touch) by (destruct how; auto; right; discriminate). destruct K as [K|K]; [auto|]. apply HB. rewrite <- ST; auto.
      - intros K M. rewrite ST; [exact (HK K M)|]. left. destruct M; congruence.
      - intros _ _ M K. exfalso. pose proof (HW M) as W. assert (X : In f (finishes l)) by (apply finishes_in; exists true; exact K). unfold work in W. destruct (finishes l); [destruct X|cbn in W; lia].
      - intros M S0 [(CM & B & Y)|(X1 & X2 & X3)].
        + exfalso. destruct (HBL M CM) as [Z|[Z|Z]]; [congruence|apply Y; apply in_or_app; left; exact Z|]. apply Z. rewrite <- ST; [exact S0|]. left. exact M.
        + exfalso. apply HX; auto. rewrite <- ST; [exact S0|]. left. exact M.
      - intros M m K. destruct (phony f) eqn:PH; [left; reflexivity|right]. destruct (cs_eqb (f_state (s_files st1 f)) Running) eqn:RR.
        + apply cs_eqb_eq in RR. rewrite (no_dry _ _ _ _ _ _ _ NO M RR PH (HRC RR)) in K. injection K as <-. right. split; [reflexivity|]. split; [exact (HRC RR)|]. destruct (HDR RR) as [Z|Z]; [left; exact Z|right; apply in_or_app; left; exact Z].
        + apply cs_eqb_neq in RR. rewrite (no_idle _ _ _ _ _ _ _ NO), H6 in K; [|left; destruct M; congruence|exact RR]. destruct (fi_dry _ _ F M m K) as [Z|[Z|(Z1 & Z3 & Z2)]]; [congruence|left; exact Z|right]. split; [exact Z1|]. split; [exact Z3|]. destruct Z2 as [Z2|Z2]; [left; exact Z2|right; apply in_or_app; right; exact Z2].
      - intros M PH K. apply in_app_or in K. destruct K as [K|K]; [|contradiction]. exact (no_dry _ _ _ _ _ _ _ NO (or_introl M) (HSR K) PH (HRC (HSR K))).
      - exact (settled_made f l st st1 st' PR ch_jobs0 NO I' R E). }
    unfold remake_file. destruct (cmds f) eqn:CM.
    - assert (EX : how <> Touch -> post (execute_file_commands phony is_target cmds blank double base chain keep_going how world f st) (fun _ st' => made f st st')).
      { intros HT. unfold execute_file_commands. destruct (blank f) eqn:B.
        + cbn [post]. apply (ONE [] (fun x => with_status Success (with_state Running x)) st Success); auto; try (intros; contradiction); try discriminate; [apply n_none|].
          intros x. cbn. auto 10.
        + assert (HC : how = Normal \/ how = Dry \/ how = Ask) by (destruct how; auto; contradiction). destruct HC as [HH|[HH|HH]]; rewrite HH; cbn iota; rewrite <- HH.
          * assert (HN : how = Normal) by exact HH. apply (post_bind _ _ _ _ _ _ (reaps_post (t_before (world (s_clock st))) st I)). intros _ st2 R2. pose proof (re_same _ _ R2 f R) as SF.
            pose proof (re_ext _ _ R2) as E2.
            destruct (started_inv f st2 (re_inv _ _ R2) (conj DO (conj CM B)) HN) as [I3 E3].
            -- rewrite SF. exact U.
            -- rewrite SF. exact R.
            -- exact CM.
            -- intros d o D. destruct (RD d o D) as [K|[K1 K2]]; [left; exact (ext_in _ _ _ E2 K)|right]. destruct (ex_upd _ _ E2 d K1) as [K3 K4]. split; [exact K3|congruence].
            -- intros O M. destruct (ex_trace _ _ E2) as (l & T). destruct (AL O M) as [K|[K|[K|[[K1 K2]|(d & K1 & K2)]]]]; unfold allowed; auto.
               ++ right. right. right. left. split; [exact K1|]. intros d o D. exact (ext_in _ _ _ E2 (K2 d o D)).
               ++ right. right. right. right. exists d. split; [exact K1|]. rewrite T. apply reason_mono. exact K2.
            -- rewrite SF. intros d D. destruct (GD d D) as [K1 K2]. destruct (ex_upd _ _ E2 _ K1) as [K3 K4]. split; [exact K3|congruence].
            -- set (st3 := mkstate (s_files (emit (Start f) (upd f (with_state Running) st2))) (s_disk (emit (Start f) (upd f (with_state Running) st2))) (s_jobs (emit (Start f) (upd f (with_state Running) st2)) ++ [f]) (S (s_clock (emit (Start f) (upd f (with_state Running) st2)))) (s_trace (emit (Start f) (upd f (with_state Running) st2))) (s_pass (emit (Start f) (upd f (with_state Running) st2)))) in *.
               assert (S3 : s_files st3 f = with_state Running (s_files st2 f)) by (cbn; rewrite Nat.eqb_refl; reflexivity).
               assert (O3 : forall n, n <> f -> s_files st3 n = s_files st2 n) by (intros n N; cbn; apply Nat.eqb_neq in N; rewrite N; reflexivity).
               apply (post_weak _ _ _ _ (reaps_post (t_after (world (s_clock st))) st3 I3)). intros _ st4 R4. split.
               ++ exact (re_inv _ _ R4).
               ++ exact (ext_trans _ _ _ E2 (ext_trans _ _ _ E3 (re_ext _ _ R4))).
               ++ intros g N K. pose proof (re_same _ _ R2 g K) as K2. assert (K3 : s_files st3 g = s_files st g) by (rewrite (O3 g N); exact K2). rewrite (re_same _ _ R4 g); [exact K3|rewrite K3; exact K].
               ++ intros g. rewrite (re_deps _ _ R4). destruct (Nat.eq_dec g f) as [->|N]; [rewrite S3, SF; reflexivity|rewrite (O3 g N); exact (re_deps _ _ R2 g)].
               ++ intros g. rewrite (re_cons _ _ R4). destruct (Nat.eq_dec g f) as [->|N]; [rewrite S3, SF; reflexivity|rewrite (O3 g N); exact (re_cons _ _ R2 g)].
               ++ intros g. rewrite (re_updating _ _ R4). destruct (Nat.eq_dec g f) as [->|N]; [rewrite S3, SF; reflexivity|rewrite (O3 g N); exact (re_updating _ _ R2 g)].
               ++ intros g K. destruct (Nat.eq_dec g f) as [->|N]; [contradiction|]. destruct (re_run _ _ R2 g K) as [K2|K2]; rewrite <- (O3 g N) in K2; [exact (re_run _ _ R4 g K2)|]. right. rewrite (re_same _ _ R4 g); congruence.
               ++ assert (K : f_state (s_files st3 f) = Running) by (rewrite S3; reflexivity). exact (re_run _ _ R4 f K).
               ++ intros [K|K]; [congruence|]. pose proof (ex_clock _ _ (re_ext _ _ R2)) as C2. pose proof (ex_clock _ _ (re_ext _ _ R4)) as C4. cbn [st3 emit upd s_clock] in C4. lia.
          * cbn [post]. apply (ONE [Finish f true; Start f] (fun x => with_status Success (with_state Running x)) (emit (Finish f true) (emit (Start f) st)) Success); auto; try discriminate; try congruence.
            -- apply n_dry; auto. split; auto.
            -- intros x. cbn. auto 10.
            -- left. exists true. left. reflexivity.
            -- intros ok [K|[K|[]]]; [injection K as <-|discriminate]. auto.
            -- intros [K|[K|[]]]; discriminate.
            -- intros _ _. right. left. right. left. reflexivity.
            -- intros _. right. right. left. reflexivity.
          * cbn [post]. apply (ONE [] (with_status Question) st Question); auto; try discriminate; try (intros; contradiction); try congruence.
            -- apply n_none.
            -- intros x. cbn. auto 10.
            -- intros _ [K|K]; congruence.
            -- intros _ _. right. right. discriminate. }
      assert (TE : how = Touch \/ how <> Touch) by (destruct how; auto; right; discriminate).
      destruct TE as [HH|HH]; [|replace (match how with Touch => Ok tt (notice f (upd f (with_status Success) st)) | _ => execute_file_commands phony is_target cmds blank double base chain keep_going how world f st end) with (execute_file_commands phony is_target cmds blank double base chain keep_going how world f st) by (destruct how; try reflexivity; contradiction); exact (EX HH)].
      rewrite HH; cbn iota; rewrite <- HH. clear EX. cbn [post].
      apply (ONE [] (with_status Success) st Success); auto; try discriminate; try (intros; contradiction); try congruence; [apply n_none|]. intros x. cbn. auto 10.
    - destruct (phony f || is_target f) eqn:PT.
      + cbn [post]. apply (ONE [] (with_status Success) st Success); auto; try discriminate; try (intros; contradiction); try congruence; [apply n_none| |].
        * intros x. cbn. auto 10.
        * intros _ _ X1 X2. rewrite X1, X2 in PT. discriminate PT.
      + apply Bool.orb_false_iff in PT. destruct PT as [PT1 PT2].
        assert (DD : keep_going = false -> Dead (emit (NoRule f) st)).
        { intros KG. apply (GI_dead st f (NoRule f) _ I U); auto. apply (GI_step f [NoRule f] st _ I (or_introl U)); auto; [apply n_norule; auto|exact (gi_nodup _ (proj2 I))|exact (gi_mode _ (proj2 I))]. }
        destruct keep_going eqn:KG; cbn [post].
        * apply (ONE [NoRule f] (with_status Failed) (emit (NoRule f) st) Failed); auto; try discriminate; try congruence.
          -- apply n_norule; auto.
          -- intros x. cbn. auto 10.
          -- right. intros [K|[]]. discriminate.
          -- intros ok [K|[]]. discriminate.
          -- intros _. right. right. apply h_no_rule. left. reflexivity.
          -- intros [K|[]]. discriminate.
        * exact (DD eq_refl).
  Qed.

  (** A circular prerequisite is dropped. *)
  Lemma drop_inv : forall f d st, Inv st -> reach d f -> (exists o, edge f d o) -> Inv (emit (Drop f d) st) /\ ext st (emit (Drop f d) st).
  Proof.
    intros f d st I R D. assert (E : ext st (emit (Drop f d) st)). { split; auto. exists [Drop f d]. reflexivity. } split; [|exact E]. split.
    - intros g. apply (FI_mono st _ g E); [|exact (proj1 I g)]. split; try reflexivity. intros e A [<-|K]; [discriminate A|exact K].
    - apply (GI_step f [Drop f d] st _ I); auto; [right; exists d; reflexivity|apply n_drop; assumption|exact (gi_nodup _ (proj2 I))|exact (gi_mode _ (proj2 I))].
  Qed.
  Definition alike (a b : dep) : Prop := d_file a = d_file b /\ d_order a = d_order b.
  Lemma deps_inv : forall f ks st st', Inv st -> chg f (with_deps ks (s_files st f)) st st' ->
    (forall k, In k ks -> exists d, In d (f_deps (s_files st f)) /\ alike k d) ->
    (forall d, In d (f_deps (s_files st f)) -> (exists k, In k ks /\ alike k d) \/ In (Drop f (d_file d)) (s_trace st)) -> Inv st' /\ ext st st'.
  Proof.
    intros f ks st st' I C A B.
    assert (M : mild f (s_files st f) (with_deps ks (s_files st f))) by (split; cbn; auto).
    apply (chg_inv f _ st st' I C M). pose proof (chg_ext _ _ _ _ C M) as E. pose proof (proj1 I f) as F.
    assert (OTH : forall d, f_updated (s_files st' d) = f_updated (s_files st d) /\ f_status (s_files st' d) = f_status (s_files st d) /\ f_mtime (s_files st' d) = f_mtime (s_files st d)).
    { intros d. destruct (Nat.eq_dec d f) as [->|N]; [rewrite (ch_self _ _ _ _ C); auto|rewrite (ch_other _ _ _ _ C d N); auto]. }
    destruct F. split; rewrite ?(ch_jobs _ _ _ _ C), ?(ch_trace _ _ _ _ C), ?(ch_disk _ _ _ _ C), ?(ch_pass _ _ _ _ C), ?(ch_self _ _ _ _ C);
      cbn [f_updated f_status f_mtime f_intermediate with_deps f_state f_deps f_considered f_tried]; try assumption.
    - intros k K. destruct (A k K) as (d & D & -> & ->). exact (fi_deps0 d D).
    - intros d o K. destruct (fi_kept0 d o K) as [(k & K1 & <- & <-)|K1]; [|right; exact K1]. destruct (B k K1) as [(k' & K2 & X & Y)|K2]; [left; exists k'; auto|right; exact K2].
    - intros U k K N. destruct (OTH (d_file k)) as (-> & -> & _). destruct (A k K) as (d & D & X & Y). rewrite X in *. exact (fi_good0 U d D N).
    - intros U k K I0. destruct (OTH (d_file k)) as (-> & _). destruct (A k K) as (d & D & X & Y). rewrite X in I0 |- *. exact (fi_all0 U d D I0).
    - intros O STA N F0 d o D. destruct (OTH d) as (-> & _). exact (fi_made0 O STA N F0 d o D).
    - intros N U S0 PV. destruct (fi_new0 N U S0 PV) as (m & MM & NA & K). exists m. split; [exact MM|]. split; [exact NA|]. intros k K1. destruct (OTH (d_file k)) as (-> & _ & ->). destruct (A k K1) as (d & D & X & Y). rewrite X, Y. exact (K d D).
  Qed.

  (** What a call leaves of the files that are being updated. *)
  Record still (st st' : state) (g : nat) : Prop := mkstill {
    sl_deps : f_deps (s_files st' g) = f_deps (s_files st g);
    sl_cons : f_considered (s_files st' g) = f_considered (s_files st g);
    sl_idle : f_state (s_files st g) <> Running -> f_state (s_files st' g) = f_state (s_files st g) /\ f_updated (s_files st' g) = f_updated (s_files st g) /\ f_status (s_files st' g) = f_status (s_files st g);
    sl_mtime : f_state (s_files st g) <> Running -> forall m, f_mtime (s_files st g) = Some m -> f_mtime (s_files st' g) = Some m;
    sl_run : f_state (s_files st g) = Running -> f_state (s_files st' g) = Running \/ f_state (s_files st' g) = Finished }.
  Lemma still_refl : forall st g, still st st g.
  Proof. intros st g. split; auto. Qed.
  Lemma still_same : forall st st' g, s_files st' g = s_files st g -> still st st' g.
  Proof. intros st st' g H. split; rewrite H; auto. Qed.
  Lemma still_trans : forall a b c g, still a b g -> still b c g -> still a c g.
  Proof.
    intros a b c g [] []. split; try congruence.
    - intros R. destruct (sl_idle0 R) as (A & B & C). destruct sl_idle1 as (A' & B' & C'); [congruence|]. repeat split; congruence.
    - intros R m M. destruct (sl_idle0 R) as (A & _). apply sl_mtime1; [congruence|]. auto.
    - intros R. destruct (sl_run0 R) as [K|K]; [auto|]. right. destruct sl_idle1 as (A & _); congruence.
  Qed.
  Definition busyp (st : state) (g : nat) : Prop := f_state (s_files st g) = Running \/ f_state (s_files st g) = DepsRunning.
  Lemma busy_p : forall st g, busy g st = true <-> busyp st g.
  Proof. intros st g. unfold busy, busyp. destruct (f_state (s_files st g)); split; intros H; auto; try discriminate; destruct H; discriminate. Qed.
  Lemma busy_n : forall st g, busy g st = false <-> ~ busyp st g.
  Proof. intros st g. rewrite <- busy_p. destruct (busy g st); split; intros H; congruence. Qed.
  Definition seen (st : state) (g : nat) : Prop :=
    f_considered (s_files st g) = s_pass st -> f_updated (s_files st g) = true \/ busyp st g \/ f_updating (s_files st g) = true.
  Definition waits (st : state) (g : nat) : Prop := f_considered (s_files st g) = s_pass st /\ f_updating (s_files st g) = false /\ f_state (s_files st g) = DepsRunning.
  Definition Lx (f : nat) (st : state) : Prop := s_jobs st = [] /\ forall g, g <> f -> ~ waits st g.
  Definition L (st : state) : Prop := s_jobs st = [] /\ forall g, ~ waits st g.
  Definition quiet (st st' : state) : Prop := how <> Normal \/ s_clock st' = s_clock st.
  Lemma quiet_split : forall a b c, ext a b -> ext b c -> quiet a c -> quiet a b /\ quiet b c.
  Proof. intros a b c A B [H|H]; [split; left; exact H|]. pose proof (ex_clock _ _ A). pose proof (ex_clock _ _ B). split; right; lia. Qed.

  Record step (st st' : state) : Prop := mkstep {
    sp_inv : Inv st';
    sp_ext : ext st st';
    sp_seen : forall g, seen st' g;
    sp_upd : forall g, f_updating (s_files st' g) = f_updating (s_files st g);
    sp_still : forall g, f_updating (s_files st g) = true -> still st st' g;
    sp_live : quiet st st' -> L st -> L st' }.
  Lemma step_refl : forall st, Inv st -> (forall g, seen st g) -> step st st.
  Proof. intros st I S0. split; auto. apply ext_refl. intros g _. apply still_refl. Qed.
  Lemma step_trans : forall a b c, step a b -> step b c -> step a c.
  Proof.
    intros a b c [] []. split; auto.
    - exact (ext_trans _ _ _ sp_ext0 sp_ext1).
    - intros g. rewrite sp_upd1. apply sp_upd0.
    - intros g U. apply (still_trans a b c); auto. apply sp_still1. rewrite sp_upd0. exact U.
    - intros Qu. destruct (quiet_split _ _ _ sp_ext0 sp_ext1 Qu). auto.
  Qed.
  (** A change that touches no more than what [seen] and [L] do not look at. *)
  Lemma step_same : forall st st', Inv st' -> ext st st' -> (forall g, seen st g) ->
    (forall g, f_updating (s_files st' g) = f_updating (s_files st g) /\ f_state (s_files st' g) = f_state (s_files st g) /\ f_updated (s_files st' g) = f_updated (s_files st g) /\
      (f_considered (s_files st' g) = f_considered (s_files st g) \/ (f_considered (s_files st' g) <> s_pass st /\ f_updating (s_files st g) = false))) ->
    (forall g, f_updating (s_files st g) = true -> f_deps (s_files st' g) = f_deps (s_files st g) /\ f_status (s_files st' g) = f_status (s_files st g) /\ forall m, f_mtime (s_files st g) = Some m -> f_mtime (s_files st' g) = Some m) ->
    s_jobs st' = s_jobs st -> step st st'.
  Proof.
    intros st st' I E S0 H K J. pose proof (ex_pass _ _ E) as P. split; auto.
    - intros g. unfold seen, busyp. destruct (H g) as (A & B & C & [D|[D _]]); rewrite A, B, C, P; [rewrite D; exact (S0 g)|]. intros Z. contradiction.
    - intros g. apply H.
    - intros g U. destruct (H g) as (A & B & C & [D|[_ D]]); [|congruence]. destruct (K g U) as (X & Y & Z). split; auto. intros R. left. congruence.
    - intros _ [J0 W]. split; [congruence|]. intros g (A & B & C). destruct (H g) as (A' & B' & C' & [D|[D _]]); [|congruence]. apply (W g). unfold waits. rewrite A' in B. rewrite B' in C. rewrite D, P in A. auto.
  Qed.
  Lemma step_mtime : forall d st m st', Inv st -> (forall g, seen st g) -> file_mtime base chain d st = (m, st') -> step st st' /\ f_mtime (s_files st' d) = Some m.
  Proof.
    intros d st m st' I S0 H. destruct (mtime_inv d st m st' I H) as (I' & E & M & OT & DI & JO & TR & CL & PA & (i & SF & _)). split; [|exact M]. apply step_same; auto.
    - intros g. destruct (Nat.eq_dec g d) as [->|N]; [rewrite SF|rewrite (OT g N)]; cbn; auto.
    - intros g _. destruct (Nat.eq_dec g d) as [->|N]; [|rewrite (OT g N); auto]. rewrite SF. cbn. split; [reflexivity|]. split; [reflexivity|]. intros m0 M0.
      destruct (mtime_cases d st m st' H) as [[M1 _]|(M1 & _)]; congruence.
  Qed.
  Lemma step_drop : forall f d st, Inv st -> (forall g, seen st g) -> reach d f -> (exists o, edge f d o) -> step st (emit (Drop f d) st).
  Proof. intros f d st I S0 R D. destruct (drop_inv f d st I R D) as [I' E]. apply step_same; auto; cbn; auto. Qed.
  Lemma step_forget : forall d st, Inv st -> (forall g, seen st g) -> 0 < s_pass st -> f_updating (s_files st d) = false -> step st (upd d (with_considered 0) st).
  Proof.
    intros d st I S0 PP U. pose proof (upd_chg d (with_considered 0) st) as C. set (st' := upd d (with_considered 0) st) in *.
    destruct (soft_inv d _ st st' I C) as [I' E]; [repeat split|cbn; lia|left; reflexivity|left; reflexivity|]. destruct C. apply step_same; auto.
    - intros g. destruct (Nat.eq_dec g d) as [->|N]; [rewrite ch_self0|rewrite (ch_other0 g N)]; cbn; auto. repeat split. right. split; [lia|exact U].
    - intros g _. destruct (Nat.eq_dec g d) as [->|N]; [rewrite ch_self0|rewrite (ch_other0 g N)]; cbn; auto.
  Qed.

  (** How many files are not being updated. *)
  Definition cnt (st : state) : nat := length (filter (fun g => negb (f_updating (s_files st g))) (seq 0 N0)).
  Definition cnt1 (f : nat) (st : state) : nat := length (filter (fun g => negb (g =? f) && negb (f_updating (s_files st g))) (seq 0 N0)).
  Lemma cnt_ext : forall st st', (forall g, f_updating (s_files st' g) = f_updating (s_files st g)) -> cnt st' = cnt st.
  Proof. intros st st' H. unfold cnt. f_equal. apply filter_ext. intros g. rewrite H. reflexivity. Qed.
  Lemma cnt1_ext : forall f st st', (forall g, g <> f -> f_updating (s_files st' g) = f_updating (s_files st g)) -> cnt1 f st' = cnt1 f st.
  Proof. intros f st st' H. unfold cnt1. f_equal. apply filter_ext. intros g. destruct (g =? f) eqn:E; [reflexivity|]. apply Nat.eqb_neq in E. rewrite (H g E). reflexivity. Qed.
  Lemma cnt_set : forall f st st', f_updating (s_files st' f) = true -> (forall g, g <> f -> f_updating (s_files st' g) = f_updating (s_files st g)) -> cnt st' = cnt1 f st.
  Proof.
    intros f st st' U H. unfold cnt, cnt1. f_equal. apply filter_ext. intros g. destruct (g =? f) eqn:E; [apply Nat.eqb_eq in E; subst; rewrite U; reflexivity|]. apply Nat.eqb_neq in E. rewrite (H g E). reflexivity.
  Qed.
  Lemma cnt_split : forall f st, dom f -> f_updating (s_files st f) = false -> cnt st = S (cnt1 f st).
  Proof.
    intros f st [D _] U. unfold cnt, cnt1. assert (K : In f (seq 0 N0)) by (apply in_seq; lia). pose proof (seq_NoDup N0 0) as ND. induction (seq 0 N0) as [|a l IH]; [destruct K|]. inversion ND as [|? ? A B]; subst. cbn [filter].
    destruct K as [->|K].
    - rewrite U, Nat.eqb_refl. cbn [negb andb length]. f_equal. f_equal. apply filter_ext_in. intros g G0. destruct (g =? f) eqn:E; [apply Nat.eqb_eq in E; subst; contradiction|reflexivity].
    - assert (E : (a =? f) = false) by (apply Nat.eqb_neq; intros ->; contradiction). rewrite E. cbn [negb andb]. destruct (f_updating (s_files st a)); cbn [negb length]; rewrite (IH K B); reflexivity.
  Qed.

  (** The prerequisites stay among the files. *)
  Hypothesis CLOSED : forall f d o, dom f -> edge f d o -> dom d.
  Definition blame (st : state) (f : nat) : Prop := how = Ask \/ how = Touch \/ hopeless (s_trace st) f.
  Lemma blame_ext : forall st st' f, ext st st' -> blame st f -> blame st' f.
  Proof. intros st st' f E [H|[H|H]]; unfold blame; auto. right. right. destruct (ex_trace _ _ E) as (l & ->). apply hopeless_mono. exact H. Qed.
  Lemma blame_dep : forall st f d o, edge f d o -> blame st d -> blame st f.
  Proof. intros st f d o D [H|[H|H]]; unfold blame; auto. right. right. exact (h_dep _ _ f d o D H). Qed.

  Definition well (st : state) (d : nat) : Prop := f_updated (s_files st d) = true /\ f_status (s_files st d) = Success.
  Definition lazy (st : state) (d : nat) : Prop := phony d = false /\ Q st d.
  Definition older (this : time) (st : state) (d : nat) : Prop := f_updated (s_files st d) = true /\ exists md, f_mtime (s_files st d) = Some md /\ md <> Absent /\ newer md this = false.
  Lemma well_ext : forall st st' d, ext st st' -> well st d -> well st' d.
  Proof. intros st st' d E [A B]. destruct (ex_upd _ _ E d A). split; congruence. Qed.
  Lemma lazy_ext : forall st st' d, ext st st' -> lazy st d -> lazy st' d.
  Proof. intros st st' d E [A B]. split; [exact A|exact (ex_Q _ _ E d B)]. Qed.
  Lemma older_ext : forall this st st' d, ext st st' -> older this st d -> older this st' d.
  Proof. intros this st st' d E (A & md & B & C). split; [exact (proj1 (ex_upd _ _ E d A))|]. exists md. split; [exact (ex_mtime _ _ E d md A B)|exact C]. Qed.
  Lemma upd_ext : forall st st' d, ext st st' -> f_updated (s_files st d) = true -> f_updated (s_files st' d) = true.
  Proof. intros st st' d E A. exact (proj1 (ex_upd _ _ E d A)). Qed.

  (** What update_file_1 and update_file leave. *)
  Record oned (E : Prop) (f : nat) (st : state) (u : us) (st' : state) : Prop := mkoned {
    o_inv : Inv st';
    o_ext : ext st st';
    o_upd : forall g, g <> f -> f_updating (s_files st' g) = f_updating (s_files st g);
    o_updf : f_updating (s_files st' f) = false \/ f_updating (s_files st' f) = f_updating (s_files st f);
    o_still : forall g, g <> f -> f_updating (s_files st g) = true -> still st st' g;
    o_seen : forall g, g <> f -> seen st' g;
    o_done : f_updated (s_files st' f) = true \/ busyp st' f;
    o_live : quiet st st' -> Lx f st -> Lx f st' /\ ~ busyp st' f;
    o_bad : bad u = true -> f_updated (s_files st' f) = true /\ bad (f_status (s_files st' f)) = true;
    o_good : u = Success -> ~ busyp st' f -> f_status (s_files st' f) = Success \/ E;
    o_idle : f_updated (s_files st f) = true -> ~ busyp st' f }.
  Definition spec_one (k : nat) (one : nat -> state -> res us) : Prop := forall f st,
    Inv st -> (forall g, g <> f -> seen st g) -> 0 < s_pass st -> dom f -> (forall g, f_updating (s_files st g) = true -> reach g f) -> 2 * cnt1 f st + 2 <= k ->
    post (one f st) (fun u st' => oned False f st u st').
  (** What check_dep leaves. *)
  Record checked (f : nat) (this : time) (must : bool) (st : state) (u : us) (must' : bool) (st' : state) : Prop := mkchecked {
    c_step : step st st';
    c_bad : bad u = true -> blame st' f;
    c_nk : keep_going = false -> u = Success;
    c_1 : f_mtime (s_files st f) <> None -> ~ busyp st' f -> f_updated (s_files st' f) = true \/ lazy st' f;
    c_2 : f_mtime (s_files st f) <> None -> ~ busyp st' f -> u = Success -> well st' f \/ lazy st' f;
    c_3 : f_mtime (s_files st f) <> None -> ~ busyp st' f -> must' = false -> older this st' f \/ lazy st' f;
    c_mono : must = true -> must' = true;
    c_why : own -> how = Normal -> must' = true -> must = true \/ reason (s_trace st') this f;
    c_idle : f_updated (s_files st f) = true -> ~ busyp st' f;
    c_live : quiet st st' -> L st -> ~ busyp st' f }.
  Definition spec_check (k : nat) (check : nat -> time -> bool -> state -> res (us * bool)) : Prop := forall f this must st,
    Inv st -> (forall g, seen st g) -> 0 < s_pass st -> dom f -> f_updating (s_files st f) = false -> (forall g, f_updating (s_files st g) = true -> reach g f) -> 2 * cnt st + 1 <= k ->
    post (check f this must st) (fun r st' => checked f this must st (fst r) (snd r) st').

  Lemma us_max_success : forall a b, us_max a b = Success <-> a = Success /\ b = Success.
  Proof. intros [] []; unfold us_max; cbn; (split; [intros H|intros [H1 H2]]); try discriminate; auto. Qed.
  Lemma us_max_bad : forall a b, bad (us_max a b) = true -> bad a = true \/ bad b = true.
  Proof. intros [] []; unfold us_max, bad; cbn; auto. Qed.
  Lemma not_bad : forall a, bad a = false -> a = Success.
  Proof. intros []; cbn; intros H; try discriminate; reflexivity. Qed.
  Lemma reason_ext : forall st st' this d, ext st st' -> reason (s_trace st) this d -> reason (s_trace st') this d.
  Proof. intros st st' this d E H. destruct (ex_trace _ _ E) as (l & ->). apply reason_mono. exact H. Qed.

  Section Loops.
    Variable k : nat.
    Variable one : nat -> state -> res us.
    Variable check : nat -> time -> bool -> state -> res (us * bool).
    Hypothesis HO : spec_one k one.
    Hypothesis HC : spec_check k check.

    (** update_file. *)
    Lemma update_file_post : forall f st, Inv st -> (forall g, g <> f -> seen st g) -> (f_considered (s_files st f) = s_pass st -> f_updated (s_files st f) = true \/ busyp st f) ->
      0 < s_pass st -> dom f -> (forall g, f_updating (s_files st g) = true -> reach g f) -> 2 * cnt1 f st + 2 <= k ->
      (Lx f st -> f_considered (s_files st f) = s_pass st -> f_state (s_files st f) <> DepsRunning) ->
      post (update_file base chain keep_going one f st) (fun u st' => oned (f_considered (s_files st f) = s_pass st /\ f_intermediate (s_files st f) = true /\ phony f = false) f st u st').
    Proof.
      intros f st I SE S1 PP D R FU LW. unfold update_file. destruct (f_considered (s_files st f) =? s_pass st) eqn:CO.
      - apply Nat.eqb_eq in CO. cbn [post]. pose proof (proj1 I f) as F. split; auto.
        + apply ext_refl.
        + intros g _ _. apply still_refl.
        + intros _ LL. split; [exact LL|]. intros [B|B]; [|exact (LW LL CO B)]. apply (fi_jobs _ _ F) in B. rewrite (proj1 LL) in B. exact B.
        + destruct (cs_eqb (f_state (s_files st f)) Finished) eqn:FI0; [|discriminate]. apply cs_eqb_eq in FI0. intros B. split; [exact (fi_fin _ _ F FI0)|exact B].
        + destruct (cs_eqb (f_state (s_files st f)) Finished) eqn:FI0; [auto|]. apply cs_eqb_neq in FI0. intros _ B. right. destruct (S1 CO) as [K|K]; [|contradiction]. split; [exact CO|]. exact (fi_reset _ _ F K FI0).
        + intros U B. destruct (fi_idle _ _ F U) as [K|K]; destruct B; congruence.
      - apply Nat.eqb_neq in CO. cbn [entries_loop]. pose proof (upd_chg f (with_considered (s_pass st)) st) as C. set (st1 := upd f (with_considered (s_pass st)) st) in *.
        destruct (soft_inv f _ st st1 I C) as [I1 E1]; [repeat split|cbn; lia|left; reflexivity|left; reflexivity|]. destruct C.
        assert (UP : forall g, f_updating (s_files st1 g) = f_updating (s_files st g)) by (intros g; destruct (Nat.eq_dec g f) as [->|N]; [rewrite ch_self0|rewrite (ch_other0 g N)]; reflexivity).
        eapply post_bind; [apply (HO f st1)|].
        + exact I1.
        + intros g N. unfold seen, busyp. rewrite (ch_other0 g N), ch_pass0. exact (SE g N).
        + rewrite ch_pass0. exact PP.
        + exact D.
        + intros g. rewrite UP. apply R.
        + rewrite (cnt1_ext f st st1); [exact FU|auto].
        + intros u st2 [].
          assert (GEN : forall u', (bad u' = true -> u' = u) -> (u' = Success -> ~ busyp st2 f -> u = Success) -> oned (f_considered (s_files st f) = s_pass st /\ f_intermediate (s_files st f) = true /\ phony f = false) f st u' st2).
          { intros u' U1 U2. split; auto.
            - exact (ext_trans _ _ _ E1 o_ext0).
            - intros g N. rewrite (o_upd0 g N). apply UP.
            - rewrite <- UP. exact o_updf0.
            - intros g N U. apply (still_trans st st1 st2); [apply still_same; exact (ch_other0 g N)|]. apply o_still0; [exact N|rewrite UP; exact U].
            - intros Qu [LJ LW0]. destruct (quiet_split _ _ _ E1 o_ext0 Qu) as [_ Q2]. apply o_live0; [exact Q2|]. split; [congruence|]. intros g N (A & B & Z). apply (LW0 g N). unfold waits. rewrite <- (ch_other0 g N). rewrite <- ch_pass0. auto.
            - intros B. pose proof (U1 B) as ->. auto.
            - intros B NB. destruct (o_good0 (U2 B NB) NB) as [K|[]]. left. exact K.
            - intros U. apply o_idle0. rewrite ch_self0. exact U. }
          destruct (bad u && negb keep_going) eqn:BK; [cbn [post]; apply GEN; auto|]. destruct (busy f st2) eqn:BU; [cbn [post]; apply GEN; [discriminate|]|].
          * apply busy_p in BU. intros _ NB. contradiction.
          * cbn [entries_loop post]. assert (us_max Success u = u) as -> by (destruct u; reflexivity). apply GEN; auto.
    Qed.

    Definition shape (f : nat) (tr : list event) (ds ks : list dep) : Prop :=
      (forall x, In x ks -> exists d, In d ds /\ alike x d) /\ (forall d, In d ds -> (exists x, In x ks /\ alike x d) \/ In (Drop f (d_file d)) tr).
    Lemma shape_nil : forall f tr, shape f tr [] [].
    Proof. intros f tr. split; intros ? []. Qed.
    Lemma shape_cons : forall f tr d ds x ks, alike x d -> shape f tr ds ks -> shape f tr (d :: ds) (x :: ks).
    Proof.
      intros f tr d ds x ks A [B C]. split.
      - intros y [<-|Y]; [exists d; split; [left; reflexivity|exact A]|]. destruct (B y Y) as (e & E & F). exists e. split; [right; exact E|exact F].
      - intros e [<-|E]; [left; exists x; split; [left; reflexivity|exact A]|]. destruct (C e E) as [(y & Y & Z)|K]; [left; exists y; split; [right; exact Y|exact Z]|right; exact K].
    Qed.
    Lemma shape_drop : forall f tr d ds ks, In (Drop f (d_file d)) tr -> shape f tr ds ks -> shape f tr (d :: ds) ks.
    Proof.
      intros f tr d ds ks A [B C]. split; [intros y Y; destruct (B y Y) as (e & E & F); exists e; split; [right; exact E|exact F]|].
      intros e [<-|E]; [right; exact A|exact (C e E)].
    Qed.

    (** The first walk. *)
    Record walked (f : nat) (this : time) (ds kept : list dep) (must : bool) (dst : us) (running : bool) (st : state) (r : list dep * bool * us * bool) (st' : state) (ks : list dep) : Prop := mkwalked {
      w_kept : fst (fst (fst r)) = kept ++ ks;
      w_step : step st st';
      w_shape : shape f (s_trace st') ds ks;
      w_upd : forall x, In x ks -> f_updating (s_files st' (d_file x)) = false;
      w_mono : must = true -> snd (fst (fst r)) = true;
      w_why : own -> how = Normal -> snd (fst (fst r)) = true -> must = true \/ exists d, edge f d false /\ reason (s_trace st') this d;
      w_bad : bad (snd (fst r)) = true -> bad dst = true \/ blame st' f;
      w_nk : keep_going = false -> dst = Success -> snd (fst r) = Success;
      w_good : snd (fst r) = Success -> dst = Success;
      w_run : snd r = false -> running = false;
      w_all : snd r = false -> forall x, In x ks -> f_updated (s_files st' (d_file x)) = true \/ lazy st' (d_file x);
      w_well : snd r = false -> snd (fst r) = Success -> forall x, In x ks -> well st' (d_file x) \/ lazy st' (d_file x);
      w_older : snd r = false -> snd (fst (fst r)) = false -> forall x, In x ks -> d_order x = false -> older this st' (d_file x) \/ lazy st' (d_file x);
      w_live : quiet st st' -> L st -> running = false -> snd r = false }.
    Lemma edge_reach : forall f d o st, edge f d o -> (forall g, f_updating (s_files st g) = true -> reach g f) -> forall g, f_updating (s_files st g) = true -> reach g d.
    Proof. intros f d o st E R g U. exact (reach_step _ g f d o (R g U) E). Qed.
    Lemma loop1_post : forall f this ds kept must dst running st,
      Inv st -> (forall g, seen st g) -> 0 < s_pass st -> dom f -> (forall g, f_updating (s_files st g) = true -> reach g f) -> 2 * cnt st + 1 <= k ->
      (forall d, In d ds -> edge f (d_file d) (d_order d)) -> (keep_going = false -> dst = Success) ->
      post (loop1 base chain keep_going check f this ds kept must dst running st) (fun r st' => exists ks, walked f this ds kept must dst running st r st' ks).
    Proof.
      intros f this ds. induction ds as [|d ds IH]; intros kept must dst running st I SE PP DO R FU ED NK.
      - cbn [loop1 post]. exists []. split; cbn [fst snd]; auto; try (intros; contradiction); [rewrite app_nil_r; reflexivity|apply step_refl; assumption|apply shape_nil].
      - cbn [loop1]. destruct (file_mtime base chain (d_file d) st) as [mt st1] eqn:MT. destruct (step_mtime _ _ _ _ I SE MT) as [S1 M1].
        pose proof (sp_inv _ _ S1) as I1. pose proof (sp_seen _ _ S1) as SE1. assert (PP1 : 0 < s_pass st1) by (rewrite (ex_pass _ _ (sp_ext _ _ S1)); exact PP).
        assert (R1 : forall g, f_updating (s_files st1 g) = true -> reach g f) by (intros g; rewrite (sp_upd _ _ S1); apply R).
        assert (FU1 : 2 * cnt st1 + 1 <= k) by (rewrite (cnt_ext st st1 (sp_upd _ _ S1)); exact FU).
        pose proof (ED d (or_introl eq_refl)) as EDd.
        unfold is_updating. destruct (f_updating (s_files st1 (d_file d))) eqn:UD.
        + (* dropped *)
          pose proof (step_drop f (d_file d) st1 I1 SE1 (R1 _ UD) (ex_intro _ _ EDd)) as S2. set (st2 := emit (Drop f (d_file d)) st1) in *.
          assert (S12 : step st st2) by exact (step_trans _ _ _ S1 S2).
          eapply post_weak; [apply (IH kept must dst running st2)|].
          * exact (sp_inv _ _ S2).
          * exact (sp_seen _ _ S2).
          * rewrite (ex_pass _ _ (sp_ext _ _ S2)). exact PP1.
          * exact DO.
          * intros g. rewrite (sp_upd _ _ S2). apply R1.
          * rewrite (cnt_ext st1 st2 (sp_upd _ _ S2)). exact FU1.
          * intros e E. apply ED. right. exact E.
          * exact NK.
          * intros r st' (ks & []). exists ks. split; auto.
            -- exact (step_trans _ _ _ S12 w_step0).
            -- apply shape_drop; [|exact w_shape0]. apply (ext_in _ _ _ (sp_ext _ _ w_step0)). left. reflexivity.
            -- intros Qu LL RU. destruct (quiet_split _ _ _ (sp_ext _ _ S12) (sp_ext _ _ w_step0) Qu) as [Q1 Q2]. apply (w_live0 Q2); [|exact RU]. exact (sp_live _ _ S12 Q1 LL).
        + eapply post_bind; [apply (HC (d_file d) this must st1 I1 SE1 PP1 (CLOSED f _ _ DO EDd) UD (edge_reach f _ _ st1 EDd R1) FU1)|]. intros [new maybe] st2 CK. cbn [fst snd] in CK.
          assert (MN : f_mtime (s_files st1 (d_file d)) <> None) by (rewrite M1; discriminate).
          pose proof (c_step _ _ _ _ _ _ _ CK) as S2. assert (S12 : step st st2) by exact (step_trans _ _ _ S1 S2).
          assert (NK2 : keep_going = false -> us_max dst new = Success). { intros K. apply us_max_success. split; [exact (NK K)|exact (c_nk _ _ _ _ _ _ _ CK K)]. }
          assert (BK : bad (us_max dst new) && negb keep_going = false). { destruct keep_going eqn:KG; [apply Bool.andb_false_r|]. rewrite NK2 by reflexivity. reflexivity. }
          cbn zeta. rewrite BK. clear BK. cbn [existsb]. rewrite Bool.orb_false_r.
          set (must2 := if d_order d then must else maybe). set (run2 := running || busy (d_file d) st2).
          assert (COM : forall st3 x, step st2 st3 -> alike x d ->
            post (loop1 base chain keep_going check f this ds (kept ++ [x]) must2 (us_max dst new) run2 st3) (fun r st' => exists ks, walked f this (d :: ds) kept must dst running st r st' ks)).
          { intros st3 x S3 AX. assert (S13 : step st st3) by exact (step_trans _ _ _ S12 S3).
            eapply post_weak; [apply (IH (kept ++ [x]) must2 (us_max dst new) run2 st3)|].
            * exact (sp_inv _ _ S3).
            * exact (sp_seen _ _ S3).
            * rewrite (ex_pass _ _ (sp_ext _ _ S13)). exact PP.
            * exact DO.
            * intros g. rewrite (sp_upd _ _ S13). apply R.
            * rewrite (cnt_ext st st3 (sp_upd _ _ S13)). exact FU.
            * intros e E. apply ED. right. exact E.
            * exact NK2.
            * intros r st' (ks & []). exists (x :: ks).
              assert (S14 : step st2 st') by exact (step_trans _ _ _ S3 w_step0). pose proof (sp_ext _ _ S14) as E14.
              assert (RF : snd r = false -> running = false /\ ~ busyp st2 (d_file d)). { intros K. pose proof (w_run0 K) as Z. unfold run2 in Z. apply Bool.orb_false_iff in Z. destruct Z as [Z1 Z2]. split; [exact Z1|]. apply busy_n. exact Z2. }
              destruct AX as [AF AO]. split; auto.
              -- rewrite w_kept0, <- app_assoc. reflexivity.
              -- exact (step_trans _ _ _ S12 S14).
              -- apply shape_cons; [split; assumption|exact w_shape0].
              -- intros y [<-|Y]; [|exact (w_upd0 y Y)]. rewrite AF, (sp_upd _ _ S14), (sp_upd _ _ S2). exact UD.
              -- intros M. apply w_mono0. unfold must2. destruct (d_order d); [exact M|exact (c_mono _ _ _ _ _ _ _ CK M)].
              -- intros O N M. destruct (w_why0 O N M) as [K|K]; [|right; exact K]. unfold must2 in K. destruct (d_order d) eqn:OD; [left; exact K|]. destruct (c_why _ _ _ _ _ _ _ CK O N K) as [Z|Z]; [left; exact Z|right].
                 exists (d_file d). split; [exact EDd|exact (reason_ext _ _ _ _ E14 Z)].
              -- intros B. destruct (w_bad0 B) as [K|K]; [|right; exact K]. apply us_max_bad in K. destruct K as [K|K]; [left; exact K|right]. apply (blame_dep st' f _ _ EDd). exact (blame_ext _ _ _ E14 (c_bad _ _ _ _ _ _ _ CK K)).
              -- intros K. apply w_good0 in K. apply us_max_success in K. apply K.
              -- intros K. exact (proj1 (RF K)).
              -- intros K y [<-|Y]; [|exact (w_all0 K y Y)]. rewrite AF. destruct (c_1 _ _ _ _ _ _ _ CK MN (proj2 (RF K))) as [Z|Z]; [left; exact (upd_ext _ _ _ E14 Z)|right; exact (lazy_ext _ _ _ E14 Z)].
              -- intros K G0 y [<-|Y]; [|exact (w_well0 K G0 y Y)]. pose proof (w_good0 G0) as Z. apply us_max_success in Z. rewrite AF. destruct (c_2 _ _ _ _ _ _ _ CK MN (proj2 (RF K)) (proj2 Z)) as [Y|Y]; [left; exact (well_ext _ _ _ E14 Y)|right; exact (lazy_ext _ _ _ E14 Y)].
              -- intros K M y [<-|Y] O; [|exact (w_older0 K M y Y O)]. rewrite AO in O. assert (MB : maybe = false). { destruct maybe eqn:Z; [|reflexivity]. rewrite w_mono0 in M; [discriminate|]. unfold must2. rewrite O. reflexivity. }
                 rewrite AF. destruct (c_3 _ _ _ _ _ _ _ CK MN (proj2 (RF K)) MB) as [Y|Y]; [left; exact (older_ext _ _ _ _ E14 Y)|right; exact (lazy_ext _ _ _ E14 Y)].
              -- intros Qu LL RU. destruct (quiet_split _ _ _ (sp_ext _ _ S1) (sp_ext _ _ (step_trans _ _ _ S2 S14)) Qu) as [Q1 Q24]. destruct (quiet_split _ _ _ (sp_ext _ _ S2) E14 Q24) as [Q2 Q3]. destruct (quiet_split _ _ _ (sp_ext _ _ S3) (sp_ext _ _ w_step0) Q3) as [Q4 Q5].
                 pose proof (sp_live _ _ S1 Q1 LL) as L1. pose proof (sp_live _ _ S2 Q2 L1) as L2. apply (w_live0 Q5 (sp_live _ _ S3 Q4 L2)). unfold run2. rewrite RU. apply busy_n. exact (c_live _ _ _ _ _ _ _ CK Q2 L1). }
          destruct run2 eqn:RN.
          * apply COM; [apply step_refl; [exact (sp_inv _ _ S2)|exact (sp_seen _ _ S2)]|split; reflexivity].
          * destruct (file_mtime base chain (d_file d) st2) as [mt' st3] eqn:MT'. destruct (step_mtime _ _ _ _ (sp_inv _ _ S2) (sp_seen _ _ S2) MT') as [S3 _]. apply COM; [exact S3|split; reflexivity].
    Qed.

    (** The walk over the intermediate ones. *)
    Record walked2 (f : nat) (ds kept : list dep) (dst : us) (running : bool) (st : state) (r : list dep * us * bool) (st' : state) (ks : list dep) : Prop := mkwalked2 {
      v_kept : fst (fst r) = kept ++ ks;
      v_step : step st st';
      v_shape : shape f [] ds ks;
      v_bad : bad (snd (fst r)) = true -> bad dst = true \/ blame st' f;
      v_nk : keep_going = false -> dst = Success -> snd (fst r) = Success;
      v_good : snd (fst r) = Success -> dst = Success;
      v_run : snd r = false -> running = false;
      v_all : snd r = false -> forall x, In x ks -> f_updated (s_files st (d_file x)) = true \/ lazy st (d_file x) -> f_updated (s_files st' (d_file x)) = true;
      v_well : snd r = false -> snd (fst r) = Success -> forall x, In x ks -> well st (d_file x) \/ lazy st (d_file x) -> well st' (d_file x);
      v_live : quiet st st' -> L st -> running = false -> snd r = false }.
    Lemma loop2_post : forall f ds kept dst running st,
      Inv st -> (forall g, seen st g) -> 0 < s_pass st -> dom f -> (forall g, f_updating (s_files st g) = true -> reach g f) -> 2 * cnt st + 1 <= k ->
      (forall d, In d ds -> edge f (d_file d) (d_order d)) -> (forall d, In d ds -> f_updating (s_files st (d_file d)) = false) -> (keep_going = false -> dst = Success) ->
      post (loop2 phony cmds base chain keep_going one f ds kept dst running st) (fun r st' => exists ks, walked2 f ds kept dst running st r st' ks).
    Proof.
      intros f ds. induction ds as [|d ds IH]; intros kept dst running st I SE PP DO R FU ED UN NK.
      - cbn [loop2 post]. exists []. split; cbn [fst snd]; auto; try (intros; contradiction); [rewrite app_nil_r; reflexivity|apply step_refl; assumption|apply shape_nil].
      - cbn [loop2]. pose proof (ED d (or_introl eq_refl)) as EDd. pose proof (UN d (or_introl eq_refl)) as UD.
        (* the rest of the walk *)
        assert (COM : forall st3 x u, step st st3 -> alike x d -> (keep_going = false -> u = Success) -> (bad u = true -> blame st3 f) ->
          forall run2, (run2 = false -> running = false) ->
          (run2 = false -> f_updated (s_files st (d_file d)) = true \/ lazy st (d_file d) -> f_updated (s_files st3 (d_file d)) = true) ->
          (run2 = false -> u = Success -> well st (d_file d) \/ lazy st (d_file d) -> well st3 (d_file d)) ->
          (quiet st st3 -> L st -> running = false -> run2 = false) ->
          post (loop2 phony cmds base chain keep_going one f ds (kept ++ [x]) (us_max dst u) run2 st3) (fun r st' => exists ks, walked2 f (d :: ds) kept dst running st r st' ks)).
        { intros st3 x u S3 AX NK2 BL run2 RU1 H1 H2 H3.
          eapply post_weak; [apply (IH (kept ++ [x]) (us_max dst u) run2 st3)|].
          * exact (sp_inv _ _ S3).
          * exact (sp_seen _ _ S3).
          * rewrite (ex_pass _ _ (sp_ext _ _ S3)). exact PP.
          * exact DO.
          * intros g. rewrite (sp_upd _ _ S3). apply R.
          * rewrite (cnt_ext st st3 (sp_upd _ _ S3)). exact FU.
          * intros e E. apply ED. right. exact E.
          * intros e E. rewrite (sp_upd _ _ S3). apply UN. right. exact E.
          * intros K. apply us_max_success. auto.
          * intros r st' (ks & []). exists (x :: ks). pose proof (sp_ext _ _ v_step0) as E3. destruct AX as [AF AO]. split; auto.
            -- rewrite v_kept0, <- app_assoc. reflexivity.
            -- exact (step_trans _ _ _ S3 v_step0).
            -- apply shape_cons; [split; assumption|exact v_shape0].
            -- intros B. destruct (v_bad0 B) as [K|K]; [|right; exact K]. apply us_max_bad in K. destruct K as [K|K]; [left; exact K|right]. exact (blame_ext _ _ _ E3 (BL K)).
            -- intros K D0. apply v_nk0; [exact K|]. apply us_max_success. auto.
            -- intros K. apply v_good0 in K. apply us_max_success in K. apply K.
            -- intros K y [<-|Y] H; [rewrite AF in *; exact (upd_ext _ _ _ E3 (H1 (v_run0 K) H))|]. apply (v_all0 K y Y). destruct H as [H|H]; [left; exact (upd_ext _ _ _ (sp_ext _ _ S3) H)|right; exact (lazy_ext _ _ _ (sp_ext _ _ S3) H)].
            -- intros K G0 y [<-|Y] H.
               ++ pose proof (v_good0 G0) as Z. apply us_max_success in Z. rewrite AF in *. exact (well_ext _ _ _ E3 (H2 (v_run0 K) (proj2 Z) H)).
               ++ apply (v_well0 K G0 y Y). destruct H as [H|H]; [left; exact (well_ext _ _ _ (sp_ext _ _ S3) H)|right; exact (lazy_ext _ _ _ (sp_ext _ _ S3) H)].
            -- intros Qu LL RU. destruct (quiet_split _ _ _ (sp_ext _ _ S3) E3 Qu) as [Q1 Q2]. apply (v_live0 Q2 (sp_live _ _ S3 Q1 LL)). exact (H3 Q1 LL RU). }
        destruct (f_intermediate (s_files st (d_file d))) eqn:IT.
        + destruct (file_mtime base chain (d_file d) st) as [mt st1] eqn:MT. destruct (step_mtime _ _ _ _ I SE MT) as [S1 M1].
          assert (PP1 : 0 < s_pass st1) by (rewrite (ex_pass _ _ (sp_ext _ _ S1)); exact PP).
          assert (UD1 : f_updating (s_files st1 (d_file d)) = false) by (rewrite (sp_upd _ _ S1); exact UD).
          pose proof (step_forget (d_file d) st1 (sp_inv _ _ S1) (sp_seen _ _ S1) PP1 UD1) as S2. pose proof (upd_chg (d_file d) (with_considered 0) st1) as C2. set (st2 := upd (d_file d) (with_considered 0) st1) in *.
          assert (S12 : step st st2) by exact (step_trans _ _ _ S1 S2).
          assert (CZ : f_considered (s_files st2 (d_file d)) = 0) by (rewrite (ch_self _ _ _ _ C2); reflexivity).
          assert (PP2 : 0 < s_pass st2) by (rewrite (ex_pass _ _ (sp_ext _ _ S12)); exact PP).
          assert (UD2 : f_updating (s_files st2 (d_file d)) = false) by (rewrite (sp_upd _ _ S12); exact UD).
          eapply post_bind; [apply (update_file_post (d_file d) st2)|].
          * exact (sp_inv _ _ S2).
          * intros g _. exact (sp_seen _ _ S2 g).
          * rewrite CZ. lia.
          * exact PP2.
          * exact (CLOSED f _ _ DO EDd).
          * intros g U. apply (edge_reach f _ _ st EDd R). rewrite <- (sp_upd _ _ S12). exact U.
          * rewrite <- (cnt_ext st st2 (sp_upd _ _ S12)) in FU. rewrite (cnt_split (d_file d) st2 (CLOSED f _ _ DO EDd) UD2) in FU. lia.
          * rewrite CZ. lia.
          * intros new st3 ON. cbn beta in ON.
            assert (S3 : step st2 st3).
            { destruct ON. split; auto.
              - intros g. destruct (Nat.eq_dec g (d_file d)) as [->|N]; [|exact (o_seen0 g N)]. intros _. destruct o_done0; auto.
              - intros g. destruct (Nat.eq_dec g (d_file d)) as [->|N]; [|exact (o_upd0 g N)]. destruct o_updf0; congruence.
              - intros g U. destruct (Nat.eq_dec g (d_file d)) as [->|N]; [congruence|]. exact (o_still0 g N U).
              - intros Qu [LJ LW]. destruct (o_live0 Qu) as [[LJ' LW'] NB]; [split; [exact LJ|intros g _; exact (LW g)]|]. split; [exact LJ'|]. intros g. destruct (Nat.eq_dec g (d_file d)) as [->|N]; [|exact (LW' g N)]. intros (_ & _ & Z). apply NB. right. exact Z. }
            assert (S13 : step st st3) by exact (step_trans _ _ _ S12 S3).
            assert (BLM : bad new = true -> blame st3 f). { intros B. apply (blame_dep st3 f _ _ EDd). destruct (o_bad _ _ _ _ _ ON B) as [A1 A2]. exact (fi_bad _ _ (proj1 (sp_inv _ _ S3) (d_file d)) A1 A2). }
            assert (NK2 : keep_going = false -> new = Success).
            { intros K. destruct (bad new) eqn:B; [|exact (not_bad _ B)]. destruct (o_bad _ _ _ _ _ ON B) as [A1 A2]. destruct MODE as [M|M]; [congruence|]. rewrite (fi_k _ _ (proj1 (sp_inv _ _ S3) (d_file d)) A1 K M) in A2. discriminate. }
            cbn zeta.
            assert (BK : bad (us_max dst new) && negb keep_going = false). { destruct keep_going eqn:KG; [apply Bool.andb_false_r|]. rewrite NK, NK2 by reflexivity. reflexivity. }
            rewrite BK. clear BK. cbn [existsb]. rewrite Bool.orb_false_r.
            assert (RF : running || busy (d_file d) st3 = false -> running = false /\ ~ busyp st3 (d_file d)). { intros Z. apply Bool.orb_false_iff in Z. destruct Z as [Z1 Z2]. split; [exact Z1|]. apply busy_n. exact Z2. }
            assert (FIN : forall st4 x, step st3 st4 -> alike x d -> post (loop2 phony cmds base chain keep_going one f ds (kept ++ [x]) (us_max dst new) (running || busy (d_file d) st3) st4) (fun r st' => exists ks, walked2 f (d :: ds) kept dst running st r st' ks)).
            { intros st4 x S4 AX. apply COM; auto.
              - exact (step_trans _ _ _ S13 S4).
              - intros B. exact (blame_ext _ _ _ (sp_ext _ _ S4) (BLM B)).
              - intros Z. apply RF. exact Z.
              - intros Z _. apply (upd_ext _ _ _ (sp_ext _ _ S4)). destruct (o_done _ _ _ _ _ ON) as [Y|Y]; [exact Y|]. exfalso. exact (proj2 (RF Z) Y).
              - intros Z G0 _. apply (well_ext _ _ _ (sp_ext _ _ S4)). split.
                + destruct (o_done _ _ _ _ _ ON) as [Y|Y]; [exact Y|]. exfalso. exact (proj2 (RF Z) Y).
                + destruct (o_good _ _ _ _ _ ON G0 (proj2 (RF Z))) as [Y|(Y & _)]; [exact Y|]. rewrite CZ in Y. lia.
              - intros Qu LL RU. destruct (quiet_split _ _ _ (sp_ext _ _ S12) (sp_ext _ _ (step_trans _ _ _ S3 S4)) Qu) as [Q1 Q34]. destruct (quiet_split _ _ _ (sp_ext _ _ S3) (sp_ext _ _ S4) Q34) as [Q3 _].
                rewrite RU. apply busy_n. destruct (sp_live _ _ S12 Q1 LL) as [LJ LW]. apply (o_live _ _ _ _ _ ON Q3). split; [exact LJ|]. intros g _. exact (LW g). }
            destruct (running || busy (d_file d) st3) eqn:RN.
            -- apply FIN; [apply step_refl; [exact (sp_inv _ _ S3)|exact (sp_seen _ _ S3)]|split; reflexivity].
            -- destruct (file_mtime base chain (d_file d) st3) as [mt' st4] eqn:MT'. destruct (step_mtime _ _ _ _ (sp_inv _ _ S3) (sp_seen _ _ S3) MT') as [S4 _]. apply FIN; [exact S4|split; reflexivity].
        + replace dst with (us_max dst Success) at 1 by (destruct dst; reflexivity).
          apply COM; auto; try discriminate.
          * apply step_refl; assumption.
          * split; reflexivity.
          * intros _ [K|[_ [K _]]]; [exact K|congruence].
          * intros _ _ [K|[_ [K _]]]; [exact K|congruence].
    Qed.

    (** The walk of check_dep. *)
    Record walked3 (f : nat) (this : time) (ds kept : list dep) (must : bool) (dst : us) (running : bool) (st : state) (r : list dep * bool * us * bool) (st' : state) (ks : list dep) : Prop := mkwalked3 {
      k_kept : fst (fst (fst r)) = kept ++ ks;
      k_step : step st st';
      k_shape : shape f (s_trace st') ds ks;
      k_mono : must = true -> snd (fst (fst r)) = true;
      k_why : own -> how = Normal -> snd (fst (fst r)) = true -> must = true \/ exists d, edge f d false /\ reason (s_trace st') this d;
      k_bad : bad (snd (fst r)) = true -> bad dst = true \/ blame st' f;
      k_nk : keep_going = false -> dst = Success -> snd (fst r) = Success;
      k_idle : (forall d, In d ds -> f_updated (s_files st (d_file d)) = true) -> running = false -> snd r = false;
      k_live : quiet st st' -> L st -> running = false -> snd r = false }.
    Lemma check_loop_post : forall f this ds kept must dst running st,
      Inv st -> (forall g, seen st g) -> 0 < s_pass st -> dom f -> (forall g, f_updating (s_files st g) = true -> reach g f) -> 2 * cnt st + 1 <= k ->
      (forall d, In d ds -> edge f (d_file d) (d_order d)) -> (keep_going = false -> dst = Success) ->
      post (check_loop base keep_going check f this ds kept must dst running st) (fun r st' => exists ks, walked3 f this ds kept must dst running st r st' ks).
    Proof.
      intros f this ds. induction ds as [|d ds IH]; intros kept must dst running st I SE PP DO R FU ED NK.
      - cbn [check_loop post]. exists []. split; cbn [fst snd]; auto; try (intros; contradiction); [rewrite app_nil_r; reflexivity|apply step_refl; assumption|apply shape_nil].
      - cbn [check_loop]. pose proof (ED d (or_introl eq_refl)) as EDd.
        unfold is_updating. destruct (f_updating (s_files st (d_file d))) eqn:UD.
        + pose proof (step_drop f (d_file d) st I SE (R _ UD) (ex_intro _ _ EDd)) as S2. set (st2 := emit (Drop f (d_file d)) st) in *.
          eapply post_weak; [apply (IH kept must dst running st2)|].
          * exact (sp_inv _ _ S2).
          * exact (sp_seen _ _ S2).
          * exact PP.
          * exact DO.
          * exact R.
          * exact FU.
          * intros e E. apply ED. right. exact E.
          * exact NK.
          * intros r st' (ks & []). exists ks. split; auto.
            -- exact (step_trans _ _ _ S2 k_step0).
            -- apply shape_drop; [|exact k_shape0]. apply (ext_in _ _ _ (sp_ext _ _ k_step0)). left. reflexivity.
            -- intros H. apply k_idle0. intros e E. apply H. right. exact E.
        + eapply post_bind; [apply (HC (d_file d) this must st I SE PP (CLOSED f _ _ DO EDd) UD (edge_reach f _ _ st EDd R) FU)|]. intros [new maybe] st2 CK. cbn [fst snd] in CK.
          pose proof (c_step _ _ _ _ _ _ _ CK) as S2.
          assert (NK2 : keep_going = false -> us_max dst new = Success). { intros K. apply us_max_success. split; [exact (NK K)|exact (c_nk _ _ _ _ _ _ _ CK K)]. }
          assert (BK : bad (us_max dst new) && negb keep_going = false). { destruct keep_going eqn:KG; [apply Bool.andb_false_r|]. rewrite NK2 by reflexivity. reflexivity. }
          cbn zeta. rewrite BK. clear BK.
          set (must2 := if d_order d then must else maybe).
          eapply post_weak; [apply (IH (kept ++ [d]) must2 (us_max dst new) (running || busy (d_file d) st2) st2)|].
          * exact (sp_inv _ _ S2).
          * exact (sp_seen _ _ S2).
          * rewrite (ex_pass _ _ (sp_ext _ _ S2)). exact PP.
          * exact DO.
          * intros g. rewrite (sp_upd _ _ S2). apply R.
          * rewrite (cnt_ext st st2 (sp_upd _ _ S2)). exact FU.
          * intros e E. apply ED. right. exact E.
          * exact NK2.
          * intros r st' (ks & []). exists (d :: ks). pose proof (sp_ext _ _ k_step0) as E14. split; auto.
            -- rewrite k_kept0, <- app_assoc. reflexivity.
            -- exact (step_trans _ _ _ S2 k_step0).
            -- apply shape_cons; [split; reflexivity|exact k_shape0].
            -- intros M. apply k_mono0. unfold must2. destruct (d_order d); [exact M|exact (c_mono _ _ _ _ _ _ _ CK M)].
            -- intros O N M. destruct (k_why0 O N M) as [K|K]; [|right; exact K]. unfold must2 in K. destruct (d_order d) eqn:OD; [left; exact K|]. destruct (c_why _ _ _ _ _ _ _ CK O N K) as [Z|Z]; [left; exact Z|right].
               exists (d_file d). split; [exact EDd|exact (reason_ext _ _ _ _ E14 Z)].
            -- intros B. destruct (k_bad0 B) as [K|K]; [|right; exact K]. apply us_max_bad in K. destruct K as [K|K]; [left; exact K|right]. apply (blame_dep st' f _ _ EDd). exact (blame_ext _ _ _ E14 (c_bad _ _ _ _ _ _ _ CK K)).
            -- intros H RU. apply k_idle0; [intros e E; apply (upd_ext _ _ _ (sp_ext _ _ S2)); apply H; right; exact E|]. rewrite RU. apply busy_n. apply (c_idle _ _ _ _ _ _ _ CK). apply H. left. reflexivity.
            -- intros Qu LL RU. destruct (quiet_split _ _ _ (sp_ext _ _ S2) E14 Qu) as [Q1 Q2]. apply (k_live0 Q2 (sp_live _ _ S2 Q1 LL)). rewrite RU. apply busy_n. exact (c_live _ _ _ _ _ _ _ CK Q1 LL).
    Qed.

    (** Times are read. *)
    Record fetched (st st' : state) : Prop := mkfetched {
      fe_inv : Inv st';
      fe_ext : ext st st';
      fe_deps : forall g, f_deps (s_files st' g) = f_deps (s_files st g);
      fe_cons : forall g, f_considered (s_files st' g) = f_considered (s_files st g);
      fe_status : forall g, f_status (s_files st' g) = f_status (s_files st g);
      fe_state : forall g, f_state (s_files st' g) = f_state (s_files st g);
      fe_updating : forall g, f_updating (s_files st' g) = f_updating (s_files st g);
      fe_updated : forall g, f_updated (s_files st' g) = f_updated (s_files st g);
      fe_mtime : forall g m, f_mtime (s_files st g) = Some m -> f_mtime (s_files st' g) = Some m;
      fe_jobs : s_jobs st' = s_jobs st;
      fe_trace : s_trace st' = s_trace st;
      fe_clock : s_clock st' = s_clock st }.
    Lemma fetched_refl : forall st, Inv st -> fetched st st.
    Proof. intros st I. split; auto. apply ext_refl. Qed.
    Lemma fetched_trans : forall a b c, fetched a b -> fetched b c -> fetched a c.
    Proof.
      intros a b c [] []. split; auto; try congruence. exact (ext_trans _ _ _ fe_ext0 fe_ext1).
    Qed.
    Lemma mtime_fetched : forall d st m st', Inv st -> file_mtime base chain d st = (m, st') -> fetched st st' /\ f_mtime (s_files st' d) = Some m.
    Proof.
      intros d st m st' I H. destruct (mtime_inv d st m st' I H) as (I' & E & M & OT & DI & JO & TR & CL & PA & (i & SF & _)). split; [|exact M].
      assert (CASE : forall A (h : file -> A), (forall x y z, h (with_mtime x (with_intermediate y z)) = h z) -> forall g, h (s_files st' g) = h (s_files st g)).
      { intros A h Z g. destruct (Nat.eq_dec g d) as [->|N]; [rewrite SF; apply Z|rewrite (OT g N); reflexivity]. }
      split; auto; try (apply CASE; reflexivity).
      intros g m0 M0. destruct (Nat.eq_dec g d) as [->|N]; [|rewrite (OT g N); exact M0]. destruct (mtime_cases d st m st' H) as [[M1 _]|(M1 & _)]; congruence.
    Qed.
    Lemma loop3_post : forall f this ds kept must changed st ks must' changed' st', Inv st -> loop3 base chain this ds kept must changed st = (ks, must', changed', st') ->
      fetched st st' /\ (exists ks', ks = kept ++ ks' /\ shape f [] ds ks') /\ (must = true -> must' = true) /\
      (must = false -> (forall d, In d ds -> d_order d = false -> older this st (d_file d) \/ lazy st (d_file d)) -> must' = false).
    Proof.
      intros f this ds. induction ds as [|d ds IH]; intros kept must changed st ks must' changed' st' I H; cbn [loop3] in H.
      - injection H as <- <- <- <-. split; [apply fetched_refl; exact I|]. split; [exists []; split; [rewrite app_nil_r; reflexivity|apply shape_nil]|]. split; auto.
      - destruct (file_mtime base chain (d_file d) st) as [m st1] eqn:MT. destruct (mtime_fetched _ _ _ _ I MT) as [F1 M1].
        apply IH in H; [|exact (fe_inv _ _ F1)]. destruct H as (F2 & (ks' & -> & SH) & A & B). split; [exact (fetched_trans _ _ _ F1 F2)|]. split.
        + eexists. split; [rewrite <- app_assoc; reflexivity|]. apply shape_cons; [split; reflexivity|exact SH].
        + split.
          * intros K. apply A. rewrite K. destruct (d_order d); reflexivity.
          * intros K Z. apply B.
            -- rewrite K. destruct (d_order d) eqn:OD; [reflexivity|]. cbn [orb]. destruct (Z d (or_introl eq_refl) OD) as [(U & md & MD & NA & _)|[_ Y]].
               ++ apply (fe_mtime _ _ F1) in MD. assert (m = md) as -> by congruence. destruct (time_eqb md Absent) eqn:TE; [apply time_eqb_eq in TE; contradiction|reflexivity].
               ++ apply (ex_Q _ _ (fe_ext _ _ F1)) in Y. rewrite (proj1 Y). apply Bool.andb_false_r.
            -- intros e E O. destruct (Z e (or_intror E) O) as [Y|Y]; [left; exact (older_ext _ _ _ _ (fe_ext _ _ F1) Y)|right; exact (lazy_ext _ _ _ (fe_ext _ _ F1) Y)].
    Qed.

    (** Settled without a recipe. *)
    Lemma quick : forall f st st1 u, Inv st -> f_updated (s_files st f) = false -> f_state (s_files st f) <> Running ->
      (forall n, n <> f -> s_files st1 n = s_files st n) -> (s_files st1 f = s_files st f \/ exists v, s_files st1 f = with_status v (s_files st f)) -> f_status (s_files st1 f) = u ->
      s_disk st1 = s_disk st -> s_jobs st1 = s_jobs st -> s_clock st1 = s_clock st -> s_trace st1 = s_trace st -> s_pass st1 = s_pass st ->
      u <> Success -> let v := match u with NoAttempt => Success | u => u end in
      (v = Success -> forall d, In d (f_deps (s_files st f)) -> well st (d_file d) \/ lazy st (d_file d)) ->
      (forall d, In d (f_deps (s_files st f)) -> f_intermediate (s_files st f) = true \/ inter (d_file d) = false \/ phony (d_file d) = true -> f_updated (s_files st (d_file d)) = true) ->
      (bad v = true -> blame st f) -> (keep_going = false -> v = Success) ->
      (how <> Touch -> v = Success -> cmds f = true \/ is_target f = false -> exists m, f_mtime (s_files st f) = Some m /\ m <> Absent /\ forall d, In d (f_deps (s_files st f)) -> d_order d = false -> older m st (d_file d) \/ lazy st (d_file d)) ->
      made f st (notice f st1) /\ f_status (s_files (notice f st1) f) = v.
    Proof.
      intros f st st1 u I U R OT SF ST DI JO CL TR PA UN v H1 H2 H3 H4 H5. pose proof (proj1 I f) as F.
      assert (FLD : f_deps (s_files st1 f) = f_deps (s_files st f) /\ f_considered (s_files st1 f) = f_considered (s_files st f) /\ f_updating (s_files st1 f) = f_updating (s_files st f) /\ f_intermediate (s_files st1 f) = f_intermediate (s_files st f) /\
        f_tried (s_files st1 f) = f_tried (s_files st f) /\ f_mtime (s_files st1 f) = f_mtime (s_files st f) /\ f_state (s_files st1 f) = f_state (s_files st f)).
      { destruct SF as [->|(w & ->)]; cbn; auto 10. }
      destruct FLD as (F1 & F2 & F3 & F4 & F5 & F6 & F7).
      pose proof (notice_noticed f st1) as NO. set (st' := notice f st1) in *.
      assert (PR : prep f [] st st1). { split; auto; rewrite ?JO, ?DI, ?CL; auto; [apply n_none|exact (jobs_nin st f F R)|exact (gi_nodup _ (proj2 I))]. }
      pose proof (prep_settled _ _ _ _ _ PR NO) as SE.
      assert (NT : how <> Touch \/ cmds f = false \/ f_status (s_files st1 f) <> Success) by (right; right; congruence).
      assert (SV : f_status (s_files st' f) = v) by (rewrite (no_status2 _ _ _ _ _ _ _ NO NT), ST; subst v; destruct u; reflexivity).
      assert (MT : f_mtime (s_files st' f) = f_mtime (s_files st f)). { rewrite (no_idle _ _ _ _ _ _ _ NO NT); [exact F6|congruence]. }
      assert (DK : s_disk st' = s_disk st) by (rewrite (no_disk2 _ _ _ _ _ _ _ NO NT); exact DI).
      assert (LZ : forall d, lazy st d -> inter d = false \/ phony d = true -> False). { intros d [P1 [P2 _]] [K|K]; [|congruence]. rewrite (fi_inter _ _ (proj1 I d) P2) in K. discriminate. }
      split; [|exact SV]. destruct (settled_inv f [] st st' I SE) as [I' E]; try (rewrite SV); auto.
      - subst v. destruct u; discriminate.
      - intros K. destruct (fi_started _ _ F K) as [Z|[Z _]]; congruence.
      - intros PH. rewrite MT. exact (fi_phony _ _ F PH).
      - intros ok [].
      - intros [].
      - intros _ _ _. rewrite DK. reflexivity.
      - intros O N m M. rewrite MT in M. rewrite DK. exact (fi_cache _ _ F O N m M).
      - intros VS d D N. destruct (H1 VS d D) as [K|K]; [exact K|]. exfalso. exact (LZ _ K N).
      - intros _ _ _ [].
      - intros N VS PV. destruct (H5 N VS) as [m (M & NA & K)]; [destruct PV as [(Z & _)|(_ & Z & _)]; auto|]. exists m. split; [rewrite MT; exact M|]. split; [exact NA|]. intros d D O IP. destruct (K d D O) as [Z|Z]; [exact Z|]. exfalso. exact (LZ _ Z IP).
      - intros N m M. rewrite MT in M. exact (fi_dry _ _ F N m M).
      - intros N P K. rewrite MT. exact (fi_shown _ _ F N P K).
      - exact (settled_made f [] st st1 st' PR JO NO I' R E).
    Qed.

    Record decided (f : nat) (running : bool) (st : state) (u : us) (st' : state) : Prop := mkdecided {
      e_inv : Inv st';
      e_ext : ext st st';
      e_upd : forall g, f_updating (s_files st' g) = f_updating (s_files st g);
      e_still : forall g, g <> f -> still st st' g;
      e_done : f_updated (s_files st' f) = true \/ busyp st' f;
      e_bad : bad u = true -> f_updated (s_files st' f) = true /\ bad (f_status (s_files st' f)) = true;
      e_good : u = Success -> ~ busyp st' f -> f_status (s_files st' f) = Success;
      e_live : quiet st st' -> running = false -> s_jobs st = [] -> ~ busyp st' f /\ s_jobs st' = [] }.
    Lemma made_still : forall f st st' g, made f st st' -> g <> f -> still st st' g.
    Proof.
      intros f st st' g [] N. split; auto.
      - intros R. rewrite (ma_same0 g N R). auto.
      - intros R m M. rewrite (ma_same0 g N R). exact M.
    Qed.
    Lemma fetched_still : forall st st' g, fetched st st' -> still st st' g.
    Proof. intros st st' g []. split; auto. intros R. left. rewrite fe_state0. exact R. Qed.
    Lemma decide_post : forall f this must dst running st, Inv st -> dom f -> f_updated (s_files st f) = false -> f_state (s_files st f) = NotStarted \/ f_state (s_files st f) = DepsRunning -> f_mtime (s_files st f) = Some this ->
      (running = false -> must || always = true -> forall x, In x (f_deps (s_files st f)) -> f_updated (s_files st (d_file x)) = true) ->
      (running = false -> forall x, In x (f_deps (s_files st f)) -> f_updated (s_files st (d_file x)) = true \/ lazy st (d_file x)) ->
      (running = false -> dst = Success -> must || always = true -> forall x, In x (f_deps (s_files st f)) -> well st (d_file x)) ->
      (running = false -> dst = Success -> forall x, In x (f_deps (s_files st f)) -> well st (d_file x) \/ lazy st (d_file x)) ->
      (running = false -> dst = Success -> must = false -> forall x, In x (f_deps (s_files st f)) -> d_order x = false -> older this st (d_file x) \/ lazy st (d_file x)) ->
      (own -> how = Normal -> must = true -> this = Absent \/ exists d, edge f d false /\ reason (s_trace st) this d) ->
      (this = Absent -> must = true) -> (bad dst = true -> blame st f) -> (keep_going = false -> dst = Success) ->
      post (decide phony is_target cmds blank double base chain keep_going always how world f this must dst running st) (fun u st' => decided f running st u st').
    Proof.
      intros f this must dst running st I DO U STA MT A1 A5 A2 A3 A4 WHY ABS BAD NK. pose proof (proj1 I f) as F. unfold decide.
      assert (R : f_state (s_files st f) <> Running) by (destruct STA; congruence).
      assert (FRESH : f_intermediate (s_files st f) = true -> must = true). { intros K. destruct (fi_fresh _ _ F K U R) as [Z|Z]; [congruence|]. apply ABS. congruence. }
      assert (NAT : f_status (s_files st f) = NoAttempt). { destruct (f_status (s_files st f)) eqn:Z; try reflexivity; rewrite (proj2 (fi_status _ _ F)) in U; congruence. }
      assert (LZ : forall s d, Inv s -> lazy s d -> inter d = false \/ phony d = true -> False). { intros s d IS [P1 [P2 _]] [K|K]; [|congruence]. rewrite (fi_inter _ _ (proj1 IS d) P2) in K. discriminate. }
      destruct running.
      { pose proof (upd_chg f (with_state DepsRunning) st) as C. set (st' := upd f (with_state DepsRunning) st) in *.
        destruct (soft_inv f _ st st' I C) as [I' E].
        - repeat split.
        - cbn. exact (fi_pass _ _ F).
        - left. reflexivity.
        - right. cbn. split; [exact R|]. split; [discriminate|]. split; [discriminate|]. split; [congruence|]. congruence.
        - destruct C. cbn [post]. split; auto; try discriminate.
          + intros g. destruct (Nat.eq_dec g f) as [->|N]; [rewrite ch_self0|rewrite (ch_other0 g N)]; reflexivity.
          + intros g N. apply still_same. exact (ch_other0 g N).
          + right. right. rewrite ch_self0. reflexivity.
          + intros _ NB. exfalso. apply NB. right. rewrite ch_self0. reflexivity. }
      (* what settling at once gives *)
      assert (FIN : forall st1 st' u, fetched st st1 \/ made f st st1 \/ True -> made f st st' -> (f_state (s_files st' f) = Finished) -> (bad u = true -> bad (f_status (s_files st' f)) = true) -> (u = Success -> f_status (s_files st' f) = Success) -> decided f false st u st').
      { intros _ st' u _ MA FI0 HB HG. split.
        - exact (ma_inv _ _ _ MA).
        - exact (ma_ext _ _ _ MA).
        - exact (ma_updating _ _ _ MA).
        - intros g N. exact (made_still _ _ _ _ MA N).
        - left. exact (fi_fin _ _ (proj1 (ma_inv _ _ _ MA) f) FI0).
        - intros B. split; [exact (fi_fin _ _ (proj1 (ma_inv _ _ _ MA) f) FI0)|auto].
        - auto.
        - intros Qu _ J. split; [intros [B|B]; congruence|]. destruct (ma_quiet _ _ _ MA) as (_ & _ & K); [exact Qu|congruence]. }
      destruct (bad dst) eqn:BD.
      { set (u := if us_rank dst =? 1 then Failed else dst). pose proof (upd_chg f (with_status u) st) as C. set (st1 := upd f (with_status u) st) in *. destruct C.
        assert (UU : u <> Success /\ u <> NoAttempt) by (subst u; destruct dst; cbn in *; split; discriminate).
        assert (UV : match u with NoAttempt => Success | u => u end = u) by (destruct u, UU; congruence).
        destruct (quick f st st1 u I U R ch_other0) as [MA SV]; try assumption.
        - right. exists u. exact ch_self0.
        - rewrite ch_self0. reflexivity.
        - apply UU.
        - rewrite UV. intros K. destruct UU. contradiction.
        - intros d D [K|K]; [apply A1; auto; rewrite (FRESH K); reflexivity|]. destruct (A5 eq_refl d D) as [Z|Z]; [exact Z|]. exfalso. exact (LZ _ _ I Z K).
        - intros _. auto.
        - intros K. rewrite (NK K) in BD. discriminate.
        - rewrite UV. intros _ K. destruct UU. contradiction.
        - cbn [post]. rewrite UV in SV. apply (FIN st (notice f st1) dst); auto.
          + exact (no_state _ _ _ _ _ _ _ (notice_noticed f st1)).
          + intros _. rewrite SV. destruct u, UU; try reflexivity; congruence.
          + intros ->. discriminate. }
      apply not_bad in BD. specialize (A2 eq_refl BD). specialize (A3 eq_refl BD). specialize (A4 eq_refl BD). specialize (A1 eq_refl).
      (* NotStarted *)
      assert (ST1 : exists st1, (if cs_eqb (f_state (s_files st f)) DepsRunning then upd f (with_state NotStarted) st else st) = st1 /\ chg f (with_state NotStarted (s_files st f)) st st1).
      { eexists. split; [reflexivity|]. destruct (cs_eqb (f_state (s_files st f)) DepsRunning) eqn:Z; [apply upd_chg|]. apply cs_eqb_neq in Z. destruct STA as [K|K]; [|contradiction]. split; auto. destruct (s_files st f); cbn in *; subst; reflexivity. }
      destruct ST1 as (st1 & -> & C1). destruct (soft_inv f _ st st1 I C1) as [I1 E1].
      { repeat split. }
      { cbn. exact (fi_pass _ _ F). }
      { left. reflexivity. }
      { destruct STA as [K|K]; [left; cbn; congruence|]. right. cbn. split; [exact R|]. split; [discriminate|]. split; [discriminate|]. split; congruence. }
      destruct C1.
      destruct (loop3 base chain this (f_deps (s_files st1 f)) [] must false st1) as [[[ds must2] changed] st2] eqn:L3.
      destruct (loop3_post f _ _ _ _ _ _ _ _ _ _ I1 L3) as (F2 & (ks & KS & SH) & MM & MF). cbn [app] in KS. subst ks.
      pose proof (upd_chg f (with_deps ds) st2) as C3. set (st3 := upd f (with_deps ds) st2) in *.
      assert (DEP : f_deps (s_files st2 f) = f_deps (s_files st f)) by (rewrite (fe_deps _ _ F2), ch_self0; reflexivity).
      rewrite ch_self0 in SH. cbn [with_state f_deps] in SH.
      destruct (deps_inv f ds st2 st3 (fe_inv _ _ F2) C3) as [I3 E3].
      { rewrite DEP. exact (proj1 SH). }
      { rewrite DEP. intros d D. destruct (proj2 SH d D) as [K|[]]. left. exact K. }
      assert (E13 : ext st st3) by exact (ext_trans _ _ _ E1 (ext_trans _ _ _ (fe_ext _ _ F2) E3)).
      destruct C3.
      assert (S3 : s_files st3 f = with_deps ds (s_files st2 f)) by exact ch_self1.
      assert (U3 : f_updated (s_files st3 f) = false) by (rewrite S3; cbn; rewrite (fe_updated _ _ F2), ch_self0; exact U).
      assert (N3 : f_state (s_files st3 f) = NotStarted) by (rewrite S3; cbn; rewrite (fe_state _ _ F2), ch_self0; reflexivity).
      assert (M3 : f_mtime (s_files st3 f) = Some this) by (rewrite S3; cbn; apply (fe_mtime _ _ F2); rewrite ch_self0; exact MT).
      assert (T3 : s_trace st3 = s_trace st) by (rewrite ch_trace1, (fe_trace _ _ F2); exact ch_trace0).
      assert (DS3 : f_deps (s_files st3 f) = ds) by (rewrite S3; reflexivity).
      assert (J3 : s_jobs st3 = s_jobs st) by (rewrite ch_jobs1, (fe_jobs _ _ F2); exact ch_jobs0).
      assert (C3 : s_clock st3 = s_clock st) by (rewrite ch_clock1, (fe_clock _ _ F2); exact ch_clock0).
      assert (ST3 : forall g, g <> f -> still st st3 g).
      { intros g N. apply (still_trans st st1); [apply still_same; exact (ch_other0 g N)|]. apply (still_trans st1 st2); [exact (fetched_still _ _ _ F2)|]. apply still_same. exact (ch_other1 g N). }
      assert (UP3 : forall g, f_updating (s_files st3 g) = f_updating (s_files st g)).
      { intros g. destruct (Nat.eq_dec g f) as [->|N].
        - rewrite S3. cbn. rewrite (fe_updating _ _ F2), ch_self0. reflexivity.
        - rewrite (ch_other1 g N), (fe_updating _ _ F2), (ch_other0 g N). reflexivity. }
      assert (FROM : forall h : nat -> bool -> Prop, (forall x, In x (f_deps (s_files st f)) -> h (d_file x) (d_order x)) -> forall x, In x ds -> h (d_file x) (d_order x)).
      { intros h H x X. destruct (proj1 SH x X) as (d & D & -> & ->). exact (H d D). }
      assert (M2 : must = false -> must2 = false).
      { intros K. apply MF; [exact K|]. rewrite ch_self0. cbn. intros d D O. destruct (A4 K d D O) as [Z|Z]; [left; exact (older_ext _ _ _ _ E1 Z)|right; exact (lazy_ext _ _ _ E1 Z)]. }
      set (must3 := if double f && match ds with [] => true | _ => false end then true else if negb (time_eqb this Absent) && is_target f && negb changed && negb (cmds f) && negb always then false else if negb must2 && cmds f && always then true else must2).
      assert (THIS : own -> how = Normal -> phony f = true \/ this = disk f).
      { intros O N. destruct (fi_cache _ _ F O N this MT) as [K|K]; [left; exact K|right]. rewrite K. exact (fi_disk2 _ _ F O U). }
      assert (DONE : forall u st', decided f false st3 u st' -> decided f false st u st').
      { intros u st' []. split; auto.
        - exact (ext_trans _ _ _ E13 e_ext0).
        - intros g. rewrite e_upd0. apply UP3.
        - intros g N. exact (still_trans _ _ _ _ (ST3 g N) (e_still0 g N)).
        - intros [Qu|Qu] _ J; apply e_live0; try congruence; [left; exact Qu|right; congruence]. }
      assert (FIN3 : forall st' u, made f st3 st' -> (f_state (s_files st' f) = Finished) -> (bad u = true -> bad (f_status (s_files st' f)) = true) -> (u = Success -> f_status (s_files st' f) = Success) -> decided f false st u st').
      { intros st' u MA FI0 HB HG. apply DONE. split.
        - exact (ma_inv _ _ _ MA).
        - exact (ma_ext _ _ _ MA).
        - exact (ma_updating _ _ _ MA).
        - intros g N. exact (made_still _ _ _ _ MA N).
        - left. exact (fi_fin _ _ (proj1 (ma_inv _ _ _ MA) f) FI0).
        - intros B. split; [exact (fi_fin _ _ (proj1 (ma_inv _ _ _ MA) f) FI0)|auto].
        - auto.
        - intros Qu _ J. split; [intros [B|B]; congruence|]. destruct (ma_quiet _ _ _ MA) as (_ & _ & K); [exact Qu|congruence]. }
      clear FIN. fold must3. destruct must3 eqn:M3E.
      - assert (WELL : forall d, In d (f_deps (s_files st3 f)) -> well st3 (d_file d)).
        { rewrite DS3. intros d D. apply (well_ext st st3 _ E13). revert d D. apply (FROM (fun n _ => well st n)). destruct ds as [|d0 ds0].
          - intros x X. destruct (proj2 SH x X) as [(y & [] & _)|[]].
          - apply A2. unfold must3 in M3E. rewrite Bool.andb_false_r in M3E. destruct must; [reflexivity|]. rewrite (M2 eq_refl) in M3E. cbn [orb negb andb] in *.
            destruct always; [reflexivity|]. rewrite Bool.andb_false_r in M3E. destruct (negb (time_eqb this Absent) && is_target f && negb changed && negb (cmds f) && negb false); discriminate M3E. }
        eapply post_bind; [apply (remake_post f st3 I3 DO U3 N3)|].
        + intros O N. destruct (THIS O N) as [K|K]; [left; exact K|]. right. unfold must3 in M3E. destruct (double f && match ds with [] => true | _ => false end) eqn:DB.
          * apply Bool.andb_true_iff in DB. destruct DB as [DB DN]. right. right. left. split; [exact DB|]. intros d o D. destruct ds; [|discriminate]. destruct (fi_kept _ _ (proj1 I3 f) d o D) as [(x & X & _)|Z]; [|exact Z]. rewrite DS3 in X. destruct X.
          * destruct always eqn:AL; [right; left; reflexivity|]. rewrite !Bool.andb_false_r in M3E. cbn [negb] in M3E. destruct must eqn:MU.
            -- destruct (WHY O N eq_refl) as [Z|(d & D & Z)]; [left; congruence|]. right. right. right. exists d. split; [exact D|]. rewrite T3, <- K. exact Z.
            -- rewrite (M2 eq_refl) in M3E. exfalso. destruct (negb (time_eqb this Absent) && is_target f && negb changed && negb (cmds f) && true); discriminate M3E.
        + exact WELL.
        + intros [] st4 MA. destruct (cs_eqb (f_state (s_files st4 f)) Finished) eqn:FE.
          * apply cs_eqb_eq in FE. cbn [post]. pose proof (upd_chg f (with_updated true) st4) as C4. set (st5 := upd f (with_updated true) st4) in *.
            pose proof (fi_fin _ _ (proj1 (ma_inv _ _ _ MA) f) FE) as U4.
            destruct (soft_inv f _ st4 st5 (ma_inv _ _ _ MA) C4) as [I5 E5].
            { repeat split. cbn. congruence. }
            { cbn. exact (fi_pass _ _ (proj1 (ma_inv _ _ _ MA) f)). }
            { left. reflexivity. }
            { left. reflexivity. }
            destruct C4.
            assert (D4 : decided f false st (f_status (s_files st4 f)) st4) by (apply FIN3; auto).
            assert (SAME : forall g, s_files st5 g = s_files st4 g). { intros g. destruct (Nat.eq_dec g f) as [->|N]; [|exact (ch_other2 g N)]. rewrite ch_self2. destruct (s_files st4 f); cbn in *; subst; reflexivity. }
            destruct D4. split; unfold busyp; rewrite ?SAME, ?ch_jobs2; auto.
            -- exact (ext_trans _ _ _ e_ext0 E5).
            -- intros g. rewrite SAME. apply e_upd0.
            -- intros g N. exact (still_trans _ _ _ _ (e_still0 g N) (still_same _ _ _ (SAME g))).
          * apply cs_eqb_neq in FE. destruct (ma_self _ _ _ MA) as [Z|Z]; [|contradiction]. cbn [post]. apply DONE. split; try discriminate.
            -- exact (ma_inv _ _ _ MA).
            -- exact (ma_ext _ _ _ MA).
            -- exact (ma_updating _ _ _ MA).
            -- intros g N. exact (made_still _ _ _ _ MA N).
            -- right. left. exact Z.
            -- intros _ NB. exfalso. apply NB. left. exact Z.
            -- intros Qu _ _. destruct (ma_quiet _ _ _ MA Qu) as (K & _). congruence.
      - cbn [post].
        assert (MUST : must = true -> this <> Absent /\ (cmds f = false /\ is_target f = true) /\ always = false).
        { intros K. specialize (MM K). unfold must3 in M3E. rewrite MM in M3E. destruct (double f && match ds with [] => true | _ => false end); [discriminate|].
          destruct (negb (time_eqb this Absent) && is_target f && negb changed && negb (cmds f) && negb always) eqn:Z; [|destruct (negb true && cmds f && always); discriminate].
          repeat (apply Bool.andb_true_iff in Z; destruct Z as [Z ?]). apply Bool.negb_true_iff in Z. split; [intros ->; discriminate Z|]. repeat split; try assumption; apply Bool.negb_true_iff; assumption. }
        assert (NA3 : f_status (s_files st3 f) = NoAttempt) by (rewrite S3; cbn; rewrite (fe_status _ _ F2), ch_self0; exact NAT).
        assert (THA : this <> Absent). { intros ->. destruct (MUST (ABS eq_refl)) as [K _]. apply K. reflexivity. }
        assert (NS3 : f_state (s_files st3 f) <> Running) by (rewrite N3; discriminate).
        destruct (quick f st3 st3 NoAttempt I3 U3 NS3) as [MA SV]; auto; try discriminate.
        + rewrite DS3. intros _ d D. assert (K : well st (d_file d) \/ lazy st (d_file d)) by (revert d D; apply (FROM (fun n _ => well st n \/ lazy st n)); exact A3). destruct K as [K|K]; [left; exact (well_ext _ _ _ E13 K)|right; exact (lazy_ext _ _ _ E13 K)].
        + rewrite DS3. intros d D [K|K].
          2:{ assert (Z : well st (d_file d) \/ lazy st (d_file d)) by (clear K; revert d D; apply (FROM (fun n _ => well st n \/ lazy st n)); exact A3). destruct Z as [Z|Z]; [exact (proj1 (well_ext _ _ _ E13 Z))|]. exfalso. exact (LZ _ _ I Z K). }
          exfalso. destruct (fi_fresh _ _ (proj1 I3 f) K U3 NS3) as [Z|Z]; [congruence|]. rewrite M3 in Z. injection Z as Z. contradiction.
        + intros _ _ CM. exists this. split; [exact M3|]. split; [exact THA|]. rewrite DS3. intros d D O. assert (MF0 : must = false). { destruct must; [|reflexivity]. destruct (MUST eq_refl) as (_ & (Z1 & Z2) & _). destruct CM; congruence. }
          assert (K : d_order d = false -> older this st (d_file d) \/ lazy st (d_file d)) by (clear O; revert d D; apply (FROM (fun n o => o = false -> older this st n \/ lazy st n)); exact (A4 MF0)). destruct (K O) as [Z|Z]; [left; exact (older_ext _ _ _ _ E13 Z)|right; exact (lazy_ext _ _ _ E13 Z)].
        + apply FIN3; auto; try discriminate. exact (no_state _ _ _ _ _ _ _ (notice_noticed f st3)).
    Qed.

    (** What [f]'s own update leaves of the others. *)
    Record wstep (f : nat) (st st' : state) : Prop := mkwstep {
      ws_inv : Inv st';
      ws_ext : ext st st';
      ws_seen : forall g, g <> f -> seen st' g;
      ws_upd : forall g, g <> f -> f_updating (s_files st' g) = f_updating (s_files st g);
      ws_still : forall g, g <> f -> f_updating (s_files st g) = true -> still st st' g;
      ws_live : quiet st st' -> Lx f st -> Lx f st' }.
    Lemma wstep_trans : forall f a b c, wstep f a b -> wstep f b c -> wstep f a c.
    Proof.
      intros f a b c [] []. split; auto.
      - exact (ext_trans _ _ _ ws_ext0 ws_ext1).
      - intros g N. rewrite (ws_upd1 g N). auto.
      - intros g N U. apply (still_trans a b c); auto. apply ws_still1; [exact N|]. rewrite (ws_upd0 g N). exact U.
      - intros Qu. destruct (quiet_split _ _ _ ws_ext0 ws_ext1 Qu). auto.
    Qed.
    Lemma step_w : forall f st st', step st st' -> f_updating (s_files st f) = true -> wstep f st st'.
    Proof.
      intros f st st' [] U. split; auto. intros Qu [J W]. destruct (sp_live0 Qu) as [J' W']; [|split; auto]. split; [exact J|]. intros g. destruct (Nat.eq_dec g f) as [->|N]; [|auto]. intros (_ & K & _). congruence.
    Qed.
    Lemma chg_w : forall f x st st', chg f x st st' -> Inv st' -> ext st st' -> (forall g, g <> f -> seen st g) -> wstep f st st'.
    Proof.
      intros f x st st' [] I E SE. split; auto.
      - intros g N. unfold seen, busyp. rewrite (ch_other0 g N), ch_pass0. exact (SE g N).
      - intros g N. rewrite (ch_other0 g N). reflexivity.
      - intros g N _. apply still_same. auto.
      - intros _ [J W]. split; [congruence|]. intros g N. unfold waits. rewrite (ch_other0 g N), ch_pass0. exact (W g N).
    Qed.
    Lemma L_Lx : forall f st, f_updating (s_files st f) = true -> Lx f st -> L st.
    Proof. intros f st U [J W]. split; [exact J|]. intros g. destruct (Nat.eq_dec g f) as [->|N]; [|auto]. intros (_ & K & _). congruence. Qed.
    Lemma still_seen : forall st st' g, Inv st' -> still st st' g -> f_updating (s_files st' g) = f_updating (s_files st g) -> s_pass st' = s_pass st -> seen st g -> seen st' g.
    Proof.
      intros st st' g I [] U P0 S0. unfold seen, busyp in *. rewrite sl_cons0, U, P0. intros C. specialize (S0 C).
      destruct (cs_eqb (f_state (s_files st g)) Running) eqn:R.
      - apply cs_eqb_eq in R. destruct (sl_run0 R) as [K|K]; [auto|]. left. exact (fi_fin _ _ (proj1 I g) K).
      - apply cs_eqb_neq in R. destruct (sl_idle0 R) as (A & B & _). rewrite A, B. exact S0.
    Qed.

    Lemma one_post : forall f st, Inv st -> (forall g, g <> f -> seen st g) -> 0 < s_pass st -> dom f -> (forall g, f_updating (s_files st g) = true -> reach g f) -> 2 * cnt1 f st + 2 <= S k ->
      post (update_file_1 phony is_target cmds blank double base chain keep_going always how world one check f st) (fun u st' => oned False f st u st').
    Proof.
      intros f st I SE PP DO R FU. pose proof (proj1 I f) as F. unfold update_file_1. destruct (f_updated (s_files st f)) eqn:U.
      { cbn [post]. assert (NB : ~ busyp st f). { intros B. destruct (fi_idle _ _ F U) as [K|K]; destruct B; congruence. } assert (NN : f_status (s_files st f) <> NoAttempt) by (apply (fi_status _ _ F); exact U).
        split; auto; [apply ext_refl|intros; apply still_refl| |]; destruct (f_status (s_files st f)); cbn; intros K; try discriminate; auto; try congruence. }
      assert (EARLY : f_state (s_files st f) = Running -> oned False f st Success st).
      { intros K. split; auto; try discriminate.
        - apply ext_refl.
        - intros; apply still_refl.
        - right. left. exact K.
        - intros _ [J _]. apply (fi_jobs _ _ F) in K. rewrite J in K. destruct K.
        - intros _ NB. exfalso. apply NB. left. exact K.
        - congruence. }
      assert (MAIN : f_state (s_files st f) = NotStarted \/ f_state (s_files st f) = DepsRunning -> post (
            let st := set_updating base f true st in
            let '(this, st) := file_mtime base chain f st in
            let st := if negb (phony f) && negb (cmds f) then upd f (with_tried true) st else st in
            bind (loop1 base chain keep_going check f this (f_deps (s_files st f)) [] (time_eqb this Absent) Success false st) (fun r st =>
            let '(ds, must, dst, running) := r in
            let st := upd f (with_deps ds) st in
            bind
              (if must || always then
                 bind (loop2 phony cmds base chain keep_going one f ds [] dst running st) (fun r st => let '(ds, dst, running) := r in Ok (dst, running) (upd f (with_deps ds) st))
               else Ok (dst, running) st) (fun r st =>
            decide phony is_target cmds blank double base chain keep_going always how world f this must (fst r) (snd r) (set_updating base f false st)))) (fun u st' => oned False f st u st')).
      2:{ destruct (f_state (s_files st f)) eqn:STA; [exact (MAIN (or_introl eq_refl))|exact (MAIN (or_intror eq_refl))|exact (EARLY eq_refl)|]. rewrite (fi_fin _ _ F STA) in U. discriminate. }
      clear EARLY. intros STA. cbv zeta.
      assert (NR : f_state (s_files st f) <> Running) by (destruct STA; congruence).
      (* being updated *)
      pose proof (upd_chg f (with_updating true) st) as C1. unfold set_updating at 1. set (st1 := upd f (with_updating true) st) in *.
      destruct (soft_inv f _ st st1 I C1) as [I1 E1]; [repeat split|cbn; exact (fi_pass _ _ F)|left; reflexivity|left; reflexivity|].
      pose proof (chg_w f _ st st1 C1 I1 E1 SE) as W1.
      assert (U1 : f_updating (s_files st1 f) = true) by (rewrite (ch_self _ _ _ _ C1); reflexivity).
      assert (SE1 : forall g, seen st1 g). { intros g. destruct (Nat.eq_dec g f) as [->|N]; [|exact (ws_seen _ _ _ W1 g N)]. intros _. right. right. exact U1. }
      destruct (file_mtime base chain f st1) as [this st2] eqn:MT. destruct (step_mtime _ _ _ _ I1 SE1 MT) as [S12 M2].
      set (st3 := if negb (phony f) && negb (cmds f) then upd f (with_tried true) st2 else st2).
      assert (S23 : step st2 st3 /\ f_mtime (s_files st3 f) = Some this).
      { subst st3. destruct (negb (phony f) && negb (cmds f)) eqn:PC; [|split; [apply step_refl; [exact (sp_inv _ _ S12)|exact (sp_seen _ _ S12)]|exact M2]].
        apply Bool.andb_true_iff in PC. destruct PC as [_ PC]. apply Bool.negb_true_iff in PC.
        pose proof (upd_chg f (with_tried true) st2) as C. destruct (soft_inv f _ st2 _ (sp_inv _ _ S12) C) as [I3 E3]; [repeat split|cbn; exact (fi_pass _ _ (proj1 (sp_inv _ _ S12) f))|right; exact PC|left; reflexivity|].
        destruct C. split; [|rewrite ch_self0; exact M2]. apply step_same; auto.
        - exact (sp_seen _ _ S12).
        - intros g. destruct (Nat.eq_dec g f) as [->|N]; [rewrite ch_self0|rewrite (ch_other0 g N)]; cbn; auto.
        - intros g _. destruct (Nat.eq_dec g f) as [->|N]; [rewrite ch_self0|rewrite (ch_other0 g N)]; cbn; auto. }
      clearbody st3. destruct S23 as [S23 M3]. pose proof (step_trans _ _ _ S12 S23) as S13. clear S12 S23.
      pose proof (sp_still _ _ S13 f U1) as SF3.
      assert (F1 : f_state (s_files st1 f) = f_state (s_files st f) /\ f_updated (s_files st1 f) = false /\ f_considered (s_files st1 f) = f_considered (s_files st f)) by (rewrite (ch_self _ _ _ _ C1); cbn; auto).
      destruct F1 as (FS1 & FU1 & FC1).
      assert (UF3 : f_updating (s_files st3 f) = true) by (rewrite (sp_upd _ _ S13); exact U1).
      assert (UP3 : forall g, g <> f -> f_updating (s_files st3 g) = f_updating (s_files st g)) by (intros g N; rewrite (sp_upd _ _ S13); exact (ws_upd _ _ _ W1 g N)).
      assert (R3 : forall g, f_updating (s_files st3 g) = true -> reach g f). { intros g K. destruct (Nat.eq_dec g f) as [->|N]; [apply reach_refl|]. apply R. rewrite <- (UP3 g N). exact K. }
      assert (CN3 : 2 * cnt st3 + 1 <= k) by (rewrite (cnt_set f st st3 UF3 UP3); lia).
      assert (PP3 : 0 < s_pass st3) by (rewrite (ex_pass _ _ (sp_ext _ _ S13)), (ex_pass _ _ E1); exact PP).
      destruct (sl_idle _ _ _ SF3) as (FS3 & FU3 & _); [congruence|].
      pose proof (wstep_trans _ _ _ _ W1 (step_w _ _ _ S13 U1)) as W3.
      eapply post_bind; [apply (loop1_post f this (f_deps (s_files st3 f)) [] (time_eqb this Absent) Success false st3)|].
      { exact (sp_inv _ _ S13). } { exact (sp_seen _ _ S13). } { exact PP3. } { exact DO. } { exact R3. } { exact CN3. }
      { exact (fi_deps _ _ (proj1 (sp_inv _ _ S13) f)). }
      { reflexivity. }
      intros [[[ds must] dst] running] st4 (ks & []). cbn [fst snd] in *. cbn [app] in w_kept0. subst ks.
      pose proof (sp_still _ _ w_step0 f UF3) as SF4. destruct (sl_idle _ _ _ SF4) as (FS4 & FU4 & _); [congruence|].
      pose proof (sl_mtime _ _ _ SF4) as FM4. assert (NR3 : f_state (s_files st3 f) <> Running) by congruence. specialize (FM4 NR3 this M3).
      assert (UF4 : f_updating (s_files st4 f) = true) by (rewrite (sp_upd _ _ w_step0); exact UF3).
      pose proof (upd_chg f (with_deps ds) st4) as C5. set (st5 := upd f (with_deps ds) st4) in *.
      destruct (deps_inv f ds st4 st5 (sp_inv _ _ w_step0) C5) as [I5 E5].
      { rewrite (sl_deps _ _ _ SF4). exact (proj1 w_shape0). }
      { rewrite (sl_deps _ _ _ SF4). exact (proj2 w_shape0). }
      pose proof (chg_w f _ st4 st5 C5 I5 E5 (fun g _ => sp_seen _ _ w_step0 g)) as W45.
      pose proof (wstep_trans _ _ _ _ W3 (wstep_trans _ _ _ _ (step_w _ _ _ w_step0 UF3) W45)) as W5.
      assert (SF5 : s_files st5 f = with_deps ds (s_files st4 f)) by exact (ch_self _ _ _ _ C5).
      assert (UF5 : f_updating (s_files st5 f) = true) by (rewrite SF5; exact UF4).
      assert (SE5 : forall g, seen st5 g). { intros g. destruct (Nat.eq_dec g f) as [->|N]; [|exact (ws_seen _ _ _ W45 g N)]. intros _. right. right. exact UF5. }
      assert (UP5 : forall g, f_updating (s_files st5 g) = f_updating (s_files st3 g)). { intros g. rewrite <- (sp_upd _ _ w_step0 g). destruct (Nat.eq_dec g f) as [->|N]; [congruence|]. exact (ws_upd _ _ _ W45 g N). }
      assert (RUN5 : quiet st st5 -> Lx f st -> running = false).
      { intros Qu LX. destruct (quiet_split _ _ _ (ws_ext _ _ _ W3) (ext_trans _ _ _ (sp_ext _ _ w_step0) E5) Qu) as [Q1 Q2]. destruct (quiet_split _ _ _ (sp_ext _ _ w_step0) E5 Q2) as [Q3 _].
        apply w_live0; auto. apply (L_Lx f); [exact UF3|]. exact (ws_live _ _ _ W3 Q1 LX). }
      eapply (post_bind _ _ _ _ (fun r st7 => wstep f st5 st7 /\ f_updated (s_files st7 f) = false /\ f_state (s_files st7 f) = f_state (s_files st f) /\ f_mtime (s_files st7 f) = Some this /\
        (forall x, In x (f_deps (s_files st7 f)) -> exists d, In d ds /\ alike x d) /\
        (bad (fst r) = true -> blame st7 f) /\ (keep_going = false -> fst r = Success) /\ (fst r = Success -> dst = Success) /\ (snd r = false -> running = false) /\
        (quiet st5 st7 -> Lx f st5 -> running = false -> snd r = false) /\
        (must || always = true -> snd r = false -> forall x, In x (f_deps (s_files st7 f)) -> f_updated (s_files st7 (d_file x)) = true) /\
        (must || always = true -> snd r = false -> fst r = Success -> forall x, In x (f_deps (s_files st7 f)) -> well st7 (d_file x)))).
      - destruct (must || always) eqn:MA.
        + eapply post_bind; [apply (loop2_post f ds [] dst running st5)|].
          * exact I5.
          * exact SE5.
          * rewrite (ex_pass _ _ E5), (ex_pass _ _ (sp_ext _ _ w_step0)). exact PP3.
          * exact DO.
          * intros g. rewrite UP5. apply R3.
          * rewrite (cnt_ext st3 st5 UP5). exact CN3.
          * intros d D. destruct (proj1 w_shape0 d D) as (e & EE & -> & ->). exact (fi_deps _ _ (proj1 (sp_inv _ _ S13) f) e EE).
          * intros d D. rewrite UP5, <- (sp_upd _ _ w_step0). exact (w_upd0 d D).
          * intros K. auto.
          * intros [[ds2 dst2] run2] st6 (ks2 & []). cbn [fst snd app] in *. subst ds2. cbn [post fst snd].
            pose proof (sp_still _ _ v_step0 f UF5) as SF6. assert (NR5 : f_state (s_files st5 f) <> Running) by (rewrite SF5; cbn; congruence). destruct (sl_idle _ _ _ SF6 NR5) as (FS6 & FU6 & _).
            assert (FM6 : f_mtime (s_files st6 f) = Some this) by (apply (sl_mtime _ _ _ SF6 NR5); rewrite SF5; exact FM4).
            pose proof (upd_chg f (with_deps ks2) st6) as C7. set (st7 := upd f (with_deps ks2) st6) in *.
            assert (DE6 : f_deps (s_files st6 f) = ds) by (rewrite (sl_deps _ _ _ SF6), SF5; reflexivity).
            destruct (deps_inv f ks2 st6 st7 (sp_inv _ _ v_step0) C7) as [I7 E7].
            { rewrite DE6. exact (proj1 v_shape0). }
            { rewrite DE6. intros d D. destruct (proj2 v_shape0 d D) as [K|[]]. left. exact K. }
            assert (SF7 : s_files st7 f = with_deps ks2 (s_files st6 f)) by exact (ch_self _ _ _ _ C7).
            assert (E67 : ext st5 st7) by exact (ext_trans _ _ _ (sp_ext _ _ v_step0) E7).
            rewrite SF7. cbn [with_deps f_updated f_state f_mtime f_deps]. repeat apply conj.
            -- exact (wstep_trans _ _ _ _ (step_w _ _ _ v_step0 UF5) (chg_w f _ st6 st7 C7 I7 E7 (fun g _ => sp_seen _ _ v_step0 g))).
            -- rewrite FU6, SF5. cbn. congruence.
            -- rewrite FS6, SF5. cbn. congruence.
            -- exact FM6.
            -- exact (proj1 v_shape0).
            -- intros B. apply (blame_ext st6 st7 f E7). destruct (v_bad0 B) as [K|K]; [|exact K]. destruct (w_bad0 K) as [Z|Z]; [discriminate|]. apply (blame_ext st4 st6 f); [exact (ext_trans _ _ _ E5 (sp_ext _ _ v_step0))|exact Z].
            -- intros K. auto.
            -- exact v_good0.
            -- exact v_run0.
            -- intros Qu LX RF. destruct (quiet_split _ _ _ (sp_ext _ _ v_step0) E7 Qu) as [Q1 _]. apply v_live0; auto. exact (L_Lx f _ UF5 LX).
            -- intros _ RF x X. apply (upd_ext st6 st7 _ E7). apply v_all0; auto. destruct (proj1 v_shape0 x X) as (d & D & Y & _). rewrite Y. destruct (w_all0 (v_run0 RF) d D) as [K|K]; [left; exact (upd_ext _ _ _ E5 K)|right; exact (lazy_ext _ _ _ E5 K)].
            -- intros _ RF SU x X. apply (well_ext st6 st7 _ E7). apply v_well0; auto. destruct (proj1 v_shape0 x X) as (d & D & Y & _). rewrite Y. destruct (w_well0 (v_run0 RF) (v_good0 SU) d D) as [K|K]; [left; exact (well_ext _ _ _ E5 K)|right; exact (lazy_ext _ _ _ E5 K)].
        + cbn [post fst snd]. rewrite SF5. cbn [with_deps f_updated f_state f_mtime f_deps]. repeat apply conj; auto; try discriminate.
          * split; auto; [apply ext_refl|intros; apply still_refl].
          * congruence.
          * congruence.
          * intros x X. exists x. split; [exact X|split; reflexivity].
          * intros B. apply (blame_ext st4 st5 f E5). destruct (w_bad0 B) as [Z|Z]; [discriminate|exact Z].
      - intros [dst2 run2] st7 (W57 & FU7 & FS7 & FM7 & SH7 & BA7 & NK7 & GO7 & RU7 & LI7 & AL7 & WE7). cbn [fst snd] in *.
        pose proof (upd_chg f (with_updating false) st7) as C8. unfold set_updating. set (st8 := upd f (with_updating false) st7) in *.
        destruct (soft_inv f _ st7 st8 (ws_inv _ _ _ W57) C8) as [I8 E8]; [repeat split|cbn; exact (fi_pass _ _ (proj1 (ws_inv _ _ _ W57) f))|left; reflexivity|left; reflexivity|].
        pose proof (wstep_trans _ _ _ _ W5 (wstep_trans _ _ _ _ W57 (chg_w f _ st7 st8 C8 I8 E8 (ws_seen _ _ _ W57)))) as W8.
        assert (SF8 : s_files st8 f = with_updating false (s_files st7 f)) by exact (ch_self _ _ _ _ C8).
        assert (E58 : ext st4 st8) by exact (ext_trans _ _ _ E5 (ext_trans _ _ _ (ws_ext _ _ _ W57) E8)).
        assert (FD8 : f_deps (s_files st8 f) = f_deps (s_files st7 f)) by (rewrite SF8; reflexivity).
        eapply post_weak; [apply (decide_post f this must dst2 run2 st8 I8 DO)|]; rewrite ?FD8.
        + rewrite SF8. exact FU7.
        + rewrite SF8. cbn. rewrite FS7. exact STA.
        + rewrite SF8. exact FM7.
        + intros RF MA x X. exact (upd_ext _ _ _ E8 (AL7 MA RF x X)).
        + intros RF x X. destruct (SH7 x X) as (d & D & -> & _). destruct (w_all0 (RU7 RF) d D) as [K|K]; [left; exact (upd_ext _ _ _ E58 K)|right; exact (lazy_ext _ _ _ E58 K)].
        + intros RF SU MA x X. exact (well_ext _ _ _ E8 (WE7 MA RF SU x X)).
        + intros RF SU x X. destruct (SH7 x X) as (d & D & -> & _). destruct (w_well0 (RU7 RF) (GO7 SU) d D) as [K|K]; [left; exact (well_ext _ _ _ E58 K)|right; exact (lazy_ext _ _ _ E58 K)].
        + intros RF SU MF x X O. destruct (SH7 x X) as (d & D & Y1 & Y2). rewrite Y1. rewrite Y2 in O. destruct (w_older0 (RU7 RF) MF d D O) as [K|K]; [left; exact (older_ext _ _ _ _ E58 K)|right; exact (lazy_ext _ _ _ E58 K)].
        + intros O N MT0. destruct (w_why0 O N MT0) as [K|(d & D & K)]; [left; apply time_eqb_eq; exact K|right]. exists d. split; [exact D|exact (reason_ext _ _ _ _ E58 K)].
        + intros ->. apply w_mono0. reflexivity.
        + intros B. exact (blame_ext _ _ _ E8 (BA7 B)).
        + exact NK7.
        + intros u st9 []. assert (PA : s_pass st9 = s_pass st8) by exact (ex_pass _ _ e_ext0). split; auto.
          * exact (ext_trans _ _ _ (ws_ext _ _ _ W8) e_ext0).
          * intros g N. rewrite e_upd0. exact (ws_upd _ _ _ W8 g N).
          * left. rewrite e_upd0, SF8. reflexivity.
          * intros g N K. exact (still_trans _ _ _ _ (ws_still _ _ _ W8 g N K) (e_still0 g N)).
          * intros g N. apply (still_seen st8); auto. exact (ws_seen _ _ _ W8 g N).
          * intros Qu LX. destruct (quiet_split _ _ _ (ws_ext _ _ _ W8) e_ext0 Qu) as [Q8 Q9].
            destruct (quiet_split _ _ _ (ws_ext _ _ _ W5) (ext_trans _ _ _ (ws_ext _ _ _ W57) E8) Q8) as [Q5 Q58]. destruct (quiet_split _ _ _ (ws_ext _ _ _ W57) E8 Q58) as [Q57 _].
            pose proof (LI7 Q57 (ws_live _ _ _ W5 Q5 LX) (RUN5 Q5 LX)) as RF. destruct (ws_live _ _ _ W8 Q8 LX) as [J8 L8].
            destruct (e_live0 Q9 RF J8) as [NB J9]. split; [|exact NB]. split; [exact J9|]. intros g N (A & B & Z). apply (L8 g N). unfold waits. rewrite PA, (sl_cons _ _ _ (e_still0 g N)) in A. rewrite e_upd0 in B. split; [exact A|]. split; [exact B|].
            assert (NRg : f_state (s_files st8 g) <> Running). { intros K. apply (fi_jobs _ _ (proj1 I8 g)) in K. rewrite J8 in K. destruct K. }
            destruct (sl_idle _ _ _ (e_still0 g N) NRg) as (K & _). congruence.
          * intros K. congruence.
    Qed.

    Lemma w_step1 : forall f st st', wstep f st st' -> f_updating (s_files st f) = false -> f_updating (s_files st' f) = false -> seen st' f -> (quiet st st' -> L st -> ~ waits st' f) -> step st st'.
    Proof.
      intros f st st' [] U U' S0 LI. split; auto.
      - intros g. destruct (Nat.eq_dec g f) as [->|N]; auto.
      - intros g. destruct (Nat.eq_dec g f) as [->|N]; [congruence|auto].
      - intros g K. apply ws_still0; [|exact K]. intros ->. congruence.
      - intros Qu [J W]. destruct (ws_live0 Qu (conj J (fun g _ => W g))) as [J' W']. split; [exact J'|]. intros g. destruct (Nat.eq_dec g f) as [->|N]; [|auto]. apply LI; [exact Qu|split; assumption].
    Qed.
    Lemma why_mtime : forall st f m this, Inv st -> own -> how = Normal -> f_mtime (s_files st f) = Some m -> (m = Absent -> phony f = false -> f_intermediate (s_files st f) = true -> False) -> m = Absent \/ newer m this = true -> reason (s_trace st) this f.
    Proof.
      intros st f m this I O N M NI W. pose proof (proj1 I f) as F. destruct (phony f) eqn:PH; [apply r_phony; exact PH|]. destruct (fi_cache _ _ F O N m M) as [K|K]; [congruence|].
      destruct (in_dec Nat.eq_dec f (finishes (s_trace st))) as [Z|Z]; [apply finishes_in in Z; destruct Z as (ok & Z); exact (r_remade _ _ _ _ _ _ f ok Z)|].
      assert (D : m = disk f). { rewrite K. apply (fi_disk _ _ F O); [congruence|]. intros ok X. apply Z. apply finishes_in. exists ok. exact X. }
      destruct W as [W|W]; [|apply r_newer; rewrite <- D; apply newer_later; exact W]. apply r_missing; [|congruence]. destruct (inter f) eqn:IT; [|reflexivity]. exfalso. destruct (f_intermediate (s_files st f)) eqn:FI0; [exact (NI W eq_refl eq_refl)|].
      apply (fi_cleared _ _ F O N IT FI0). congruence.
    Qed.

    Lemma check_post : forall f this must st, Inv st -> (forall g, seen st g) -> 0 < s_pass st -> dom f -> f_updating (s_files st f) = false -> (forall g, f_updating (s_files st g) = true -> reach g f) -> 2 * cnt st + 1 <= S k ->
      post (check_dep phony cmds base chain keep_going one check f this must st) (fun r st' => checked f this must st (fst r) (snd r) st').
    Proof.
      intros f this must st I SE PP DO UF R FU. pose proof (proj1 I f) as F. unfold check_dep, set_updating. cbv beta zeta.
      pose proof (upd_chg f (with_updating true) st) as C1. set (st1 := upd f (with_updating true) st) in *.
      destruct (soft_inv f _ st st1 I C1) as [I1 E1]; [repeat split|cbn; exact (fi_pass _ _ F)|left; reflexivity|left; reflexivity|].
      pose proof (chg_w f _ st st1 C1 I1 E1 (fun g _ => SE g)) as W1.
      assert (SF1 : s_files st1 f = with_updating true (s_files st f)) by exact (ch_self _ _ _ _ C1).
      assert (U1 : f_updating (s_files st1 f) = true) by (rewrite SF1; reflexivity).
      assert (SE1 : forall g, seen st1 g). { intros g. destruct (Nat.eq_dec g f) as [->|N]; [|exact (ws_seen _ _ _ W1 g N)]. intros _. right. right. exact U1. }
      assert (UP1 : forall g, g <> f -> f_updating (s_files st1 g) = f_updating (s_files st g)) by exact (ws_upd _ _ _ W1).
      assert (R1 : forall g, f_updating (s_files st1 g) = true -> reach g f). { intros g K. destruct (Nat.eq_dec g f) as [->|N]; [apply reach_refl|]. apply R. rewrite <- (UP1 g N). exact K. }
      assert (P1 : s_pass st1 = s_pass st) by exact (ex_pass _ _ E1).
      pose proof (cnt_split f st DO UF) as CS.
      assert (SEf : f_considered (s_files st f) = s_pass st -> f_updated (s_files st f) = true \/ busyp st f). { intros K. destruct (SE f K) as [Z|[Z|Z]]; auto. congruence. }
      destruct (phony f || negb (f_intermediate (s_files st1 f))) eqn:BR.
      - assert (NI : phony f = true \/ f_intermediate (s_files st f) = false). { apply Bool.orb_true_iff in BR. destruct BR as [K|K]; [left; exact K|right]. apply Bool.negb_true_iff in K. rewrite SF1 in K. exact K. }
        eapply (post_bind _ _ _ _ (fun u st2 => Inv st2 /\ ext st1 st2 /\ (forall g, g <> f -> f_updating (s_files st2 g) = f_updating (s_files st1 g)) /\ (forall g, g <> f -> f_updating (s_files st1 g) = true -> still st1 st2 g) /\
          (forall g, g <> f -> seen st2 g) /\ (f_updated (s_files st2 f) = true \/ busyp st2 f) /\ (quiet st1 st2 -> L st -> Lx f st2 /\ ~ busyp st2 f) /\
          (bad u = true -> f_updated (s_files st2 f) = true /\ bad (f_status (s_files st2 f)) = true) /\ (u = Success -> ~ busyp st2 f -> f_status (s_files st2 f) = Success) /\ (f_updated (s_files st1 f) = true -> ~ busyp st2 f))).
        + assert (LX1 : L st -> Lx f st1). { intros [J W]. split; [rewrite (ch_jobs _ _ _ _ C1); exact J|]. intros g N. unfold waits. rewrite (ch_other _ _ _ _ C1 g N), P1. exact (W g). }
          assert (CASE : (f_considered (s_files st f) = s_pass st /\ f_state (s_files st f) = DepsRunning) \/ (f_considered (s_files st f) = s_pass st -> f_state (s_files st f) <> DepsRunning)).
          { destruct (Nat.eq_dec (f_considered (s_files st f)) (s_pass st)) as [A|A]; [|right; intros K; contradiction]. destruct (f_state (s_files st f)) eqn:Z; [right; discriminate|left; auto|right; discriminate|right; discriminate]. }
          destruct CASE as [[A B]|CASE].
          * unfold update_file. cbv beta zeta. assert ((f_considered (s_files st1 f) =? s_pass st1) = true) as -> by (apply Nat.eqb_eq; rewrite SF1, P1; exact A).
            assert (B1 : f_state (s_files st1 f) = DepsRunning) by (rewrite SF1; exact B). rewrite B1. cbn [cs_eqb post]. repeat match goal with |- _ /\ _ => split end; auto; try discriminate.
            -- apply ext_refl.
            -- intros; apply still_refl.
            -- right. right. exact B1.
            -- intros _ [_ W]. exfalso. apply (W f). split; auto.
            -- intros _ NB. exfalso. apply NB. right. exact B1.
            -- intros K. destruct (fi_idle _ _ (proj1 I1 f) K); congruence.
          * eapply post_weak; [apply (update_file_post f st1 I1)|].
            -- intros g _. apply SE1.
            -- rewrite P1. unfold busyp. rewrite SF1. cbn. exact SEf.
            -- rewrite P1. exact PP.
            -- exact DO.
            -- exact R1.
            -- rewrite (cnt1_ext f st st1 UP1). lia.
            -- intros _. rewrite P1, SF1. exact CASE.
            -- intros u st2 []. repeat match goal with |- _ /\ _ => split end; auto. intros U NB. destruct (o_good0 U NB) as [K|(_ & K1 & K2)]; [exact K|]. rewrite SF1 in K1. cbn in K1. destruct NI; congruence.
        + intros u st2 (I2 & E2 & UP2 & ST2 & SE2 & DN2 & LI2 & BA2 & GO2 & ID2).
          assert (SEA : forall g, seen st2 g). { intros g. destruct (Nat.eq_dec g f) as [->|N]; [|exact (SE2 g N)]. intros _. destruct DN2; auto. }
          destruct (file_mtime base chain f st2) as [m st3] eqn:MT. destruct (step_mtime _ _ _ _ I2 SEA MT) as [S23 M3].
          pose proof (mtime_inv f st2 m st3 I2 MT) as (_ & _ & _ & _ & _ & _ & _ & _ & _ & (i & SF3 & _)).
          assert (B3 : busyp st3 f <-> busyp st2 f) by (unfold busyp; rewrite SF3; reflexivity).
          pose proof (upd_chg f (with_updating false) st3) as C4. set (st4 := upd f (with_updating false) st3) in *.
          destruct (soft_inv f _ st3 st4 (sp_inv _ _ S23) C4) as [I4 E4]; [repeat split|cbn; exact (fi_pass _ _ (proj1 (sp_inv _ _ S23) f))|left; reflexivity|left; reflexivity|].
          assert (SF4 : s_files st4 f = with_updating false (s_files st3 f)) by exact (ch_self _ _ _ _ C4).
          assert (B4 : busyp st4 f <-> busyp st2 f) by (rewrite <- B3; unfold busyp; rewrite SF4; reflexivity).
          assert (E34 : ext st2 st4) by exact (ext_trans _ _ _ (sp_ext _ _ S23) E4).
          assert (T4 : s_trace st4 = s_trace st3) by exact (ch_trace _ _ _ _ C4).
          assert (US4 : f_updated (s_files st4 f) = f_updated (s_files st2 f) /\ f_status (s_files st4 f) = f_status (s_files st2 f) /\ f_mtime (s_files st4 f) = Some m) by (rewrite SF4, SF3; cbn; auto).
          destruct US4 as (U4 & ST4 & M4).
          assert (E14 : ext st st4) by exact (ext_trans _ _ _ E1 (ext_trans _ _ _ E2 E34)).
          assert (LIV : quiet st st4 -> L st -> L st4 /\ ~ busyp st4 f).
          { intros Qu LL. destruct (quiet_split _ _ _ E1 (ext_trans _ _ _ E2 E34) Qu) as [_ Q2]. destruct (quiet_split _ _ _ E2 E34 Q2) as [Q3 Q4]. destruct (quiet_split _ _ _ (sp_ext _ _ S23) E4 Q4) as [Q5 _].
            destruct (LI2 Q3 LL) as [[J2 W2] NB2]. assert (L2 : L st2). { split; [exact J2|]. intros g. destruct (Nat.eq_dec g f) as [->|N]; [|exact (W2 g N)]. intros (_ & _ & K). apply NB2. right. exact K. }
            destruct (sp_live _ _ S23 Q5 L2) as [J3 W3]. rewrite B4. split; [|exact NB2]. split; [rewrite (ch_jobs _ _ _ _ C4); exact J3|]. intros g. destruct (Nat.eq_dec g f) as [->|N].
            - intros (_ & _ & K). apply NB2. apply B4. right. exact K.
            - unfold waits. rewrite (ch_other _ _ _ _ C4 g N), (ch_pass _ _ _ _ C4). exact (W3 g). }
          cbn [post fst snd]. split; cbn [fst snd].
          * split; auto.
            -- intros g. destruct (Nat.eq_dec g f) as [->|N].
               ++ intros _. rewrite U4, B4. destruct DN2; auto.
               ++ unfold seen, busyp. rewrite (ch_other _ _ _ _ C4 g N), (ch_pass _ _ _ _ C4). exact (sp_seen _ _ S23 g).
            -- intros g. destruct (Nat.eq_dec g f) as [->|N]; [rewrite SF4, UF; reflexivity|]. rewrite (ch_other _ _ _ _ C4 g N), (sp_upd _ _ S23), (UP2 g N). exact (UP1 g N).
            -- intros g K. assert (N : g <> f) by (intros ->; congruence). apply (still_trans st st1); [exact (ws_still _ _ _ W1 g N K)|]. apply (still_trans st1 st2); [apply ST2; [exact N|rewrite (UP1 g N); exact K]|].
               apply (still_trans st2 st3); [apply (sp_still _ _ S23); rewrite (UP2 g N), (UP1 g N); exact K|]. apply still_same. exact (ch_other _ _ _ _ C4 g N).
            -- intros Qu LL. exact (proj1 (LIV Qu LL)).
          * intros B. destruct (BA2 B) as [K1 K2]. apply (blame_ext st2 st4 f E34). exact (fi_bad _ _ (proj1 I2 f) K1 K2).
          * intros K. apply not_bad. destruct (bad u); [|reflexivity]. destruct (BA2 eq_refl) as [K1 K2]. destruct MODE as [M|M]; [congruence|]. rewrite (fi_k _ _ (proj1 I2 f) K1 K M) in K2. discriminate.
          * intros _ NB. left. rewrite B4 in NB. rewrite U4. destruct DN2; [assumption|contradiction].
          * intros _ NB U. left. rewrite B4 in NB. split; [rewrite U4; destruct DN2; [assumption|contradiction]|]. rewrite ST4. auto.
          * intros _ NB MF. left. rewrite B4 in NB. apply Bool.orb_false_iff in MF. destruct MF as [MF MN]. apply Bool.orb_false_iff in MF. destruct MF as [_ MA]. split; [rewrite U4; destruct DN2; [assumption|contradiction]|]. exists m. split; [exact M4|]. split; [intros ->; discriminate MA|exact MN].
          * intros ->. reflexivity.
          * intros O N K. destruct must; [left; reflexivity|right]. cbn [orb] in K. apply (why_mtime st4 f m this I4 O N M4).
            -- intros _ PH IT. apply (ex_inter _ _ E14) in IT. destruct NI; congruence.
            -- apply Bool.orb_true_iff in K. destruct K as [K|K]; [left; apply time_eqb_eq; exact K|right; exact K].
          * intros K. rewrite B4. apply ID2. rewrite SF1. exact K.
          * intros Qu LL. exact (proj2 (LIV Qu LL)).
      - apply Bool.orb_false_iff in BR. destruct BR as [PH IT]. apply Bool.negb_false_iff in IT. rewrite SF1 in IT. cbn in IT.
        set (st2 := if negb (cmds f) then upd f (with_tried true) st1 else st1).
        assert (S12 : step st1 st2 /\ (exists b, s_files st2 f = with_tried b (s_files st1 f)) /\ (forall g, g <> f -> s_files st2 g = s_files st1 g)).
        { subst st2. destruct (cmds f) eqn:CM; cbn [negb].
          - split; [apply step_refl; assumption|]. split; [exists (f_tried (s_files st1 f)); destruct (s_files st1 f); reflexivity|auto].
          - pose proof (upd_chg f (with_tried true) st1) as C. destruct (soft_inv f _ st1 _ I1 C) as [I2 E2]; [repeat split|cbn; exact (fi_pass _ _ (proj1 I1 f))|right; exact CM|left; reflexivity|].
            destruct C. split; [|split; [exists true; exact ch_self0|exact ch_other0]]. apply step_same; auto.
            + intros g. destruct (Nat.eq_dec g f) as [->|N]; [rewrite ch_self0|rewrite (ch_other0 g N)]; cbn; auto.
            + intros g _. destruct (Nat.eq_dec g f) as [->|N]; [rewrite ch_self0|rewrite (ch_other0 g N)]; cbn; auto. }
        clearbody st2. destruct S12 as (S12 & (tb & SF2) & OT2).
        destruct (file_mtime base chain f st2) as [m st3] eqn:MT. destruct (step_mtime _ _ _ _ (sp_inv _ _ S12) (sp_seen _ _ S12) MT) as [S23 M3].
        assert (SF3 : exists i, s_files st3 f = with_mtime (Some m) (with_intermediate i (s_files st2 f)) /\ (f_mtime (s_files st f) <> None \/ f_state (s_files st f) <> NotStarted -> i = true)).
        { destruct (mtime_cases f st2 m st3 MT) as [[M ->]|(M & _ & C)].
          - exists true. split; [|reflexivity]. rewrite SF2, SF1 in *. destruct (s_files st f); cbn in *; subst; reflexivity.
          - eexists. split; [exact (ch_self _ _ _ _ C)|]. rewrite SF2, SF1 in *. cbn in M |- *. rewrite IT. cbn [andb]. intros [K|K]; [contradiction|]. unfold lost. cbn. destruct (cs_eqb (f_state (s_files st f)) NotStarted) eqn:Z; [apply cs_eqb_eq in Z; contradiction|]. rewrite Bool.andb_false_r. reflexivity. }
        destruct SF3 as (i & SF3 & IK). rewrite SF2, SF1 in SF3.
        pose proof (step_trans _ _ _ S12 S23) as S13. assert (OT3 : forall g, g <> f -> s_files st3 g = s_files st2 g). { exact (proj1 (proj2 (proj2 (proj2 (mtime_inv f st2 m st3 (sp_inv _ _ S12) MT))))). }
        pose proof (wstep_trans _ _ _ _ W1 (step_w _ _ _ S13 U1)) as W3. pose proof (ws_ext _ _ _ W3) as E3. pose proof (ws_inv _ _ _ W3) as I3.
        assert (UF3 : f_updating (s_files st3 f) = true) by (rewrite (sp_upd _ _ S13); exact U1).
        assert (KEEP : f_updated (s_files st f) = true \/ f_state (s_files st f) = Running -> i = true).
        { intros K. apply IK. destruct K as [K|K]; [|right; congruence]. destruct (f_mtime (s_files st f)) eqn:Z; [left; discriminate|right]. rewrite (fi_none _ _ F K Z). discriminate. }
        assert (LAZY : f_mtime (s_files st f) <> None -> forall st', ext st st' -> lazy st' f). { intros K st' E. apply (lazy_ext st st' f E). split; [exact PH|]. split; [exact IT|left; exact K]. }
        destruct (negb (time_eqb m Absent) && newer m this) eqn:NW.
        + apply Bool.andb_true_iff in NW. destruct NW as [NA NW]. apply Bool.negb_true_iff in NA. assert (MA : m <> Absent) by (intros ->; discriminate NA).
          pose proof (upd_chg f (with_updating false) st3) as C4. set (st4 := upd f (with_updating false) st3) in *.
          destruct (soft_inv f _ st3 st4 I3 C4) as [I4 E4]; [repeat split|cbn; exact (fi_pass _ _ (proj1 I3 f))|left; reflexivity|left; reflexivity|].
          pose proof (wstep_trans _ _ _ _ W3 (chg_w f _ st3 st4 C4 I4 E4 (ws_seen _ _ _ W3))) as W4. pose proof (ws_ext _ _ _ W4) as E04.
          assert (SF4 : s_files st4 f = with_updating false (s_files st3 f)) by exact (ch_self _ _ _ _ C4). rewrite SF3 in SF4.
          assert (NB : f_updated (s_files st f) = true \/ s_jobs st = [] -> ~ busyp st4 f).
          { intros K [B|B]; rewrite SF4 in B; cbn in B.
            - destruct K as [K|K]; [destruct (fi_idle _ _ F K); congruence|]. apply (fi_jobs _ _ F) in B. rewrite K in B. destruct B.
            - assert (ZU : f_updated (s_files st f) = false). { destruct (f_updated (s_files st f)) eqn:Z; [destruct (fi_idle _ _ F Z); congruence|reflexivity]. }
              pose proof (fi_fresh _ _ (proj1 I3 f)) as FR. rewrite SF3 in FR. cbn in FR. assert (ZN : f_state (s_files st f) <> NotStarted) by (rewrite B; discriminate). assert (ZR : f_state (s_files st f) <> Running) by (rewrite B; discriminate). destruct (FR (IK (or_intror ZN)) ZU ZR) as [Z|Z]; [discriminate|]. injection Z as Z. contradiction. }
          cbn [post fst snd]. split; cbn [fst snd]; try discriminate; auto.
          * apply (w_step1 f st st4 W4 UF); [rewrite SF4; reflexivity| |].
            -- unfold seen, busyp. rewrite (ex_pass _ _ E04), SF4. cbn. intros K. destruct (SEf K) as [Z|Z]; auto.
            -- intros _ LL (_ & _ & K). apply (NB (or_intror (proj1 LL))). right. exact K.
          * intros O N _. right. apply (why_mtime st4 f m this I4 O N); [rewrite SF4; reflexivity|intros K; contradiction|right; exact NW].
          * intros _ LL. exact (NB (or_intror (proj1 LL))).
        + set (x4 := match f_state (s_files st3 f) with Running => s_files st3 f | DepsRunning => with_state NotStarted (with_considered 0 (s_files st3 f)) | _ => with_state NotStarted (s_files st3 f) end).
          set (st4 := match f_state (s_files st3 f) with Running => st3 | DepsRunning => upd f (fun x => with_state NotStarted (with_considered 0 x)) st3 | _ => upd f (with_state NotStarted) st3 end).
          assert (C4 : chg f x4 st3 st4). { subst x4 st4. destruct (f_state (s_files st3 f)); try apply upd_chg; [exact (upd_chg f (fun x => with_state NotStarted (with_considered 0 x)) st3)|]. split; auto. }
          clearbody st4.
          assert (STF : f_state (s_files st3 f) = f_state (s_files st f) /\ f_updated (s_files st3 f) = f_updated (s_files st f) /\ f_considered (s_files st3 f) = f_considered (s_files st f) /\ f_intermediate (s_files st3 f) = i) by (rewrite SF3; cbn; auto). destruct STF as (FS3 & FU3 & FC3 & FI3).
          assert (X4 : f_deps x4 = f_deps (s_files st3 f) /\ f_mtime x4 = Some m /\ f_status x4 = f_status (s_files st3 f) /\ f_updated x4 = f_updated (s_files st3 f) /\ f_intermediate x4 = i /\ f_updating x4 = true /\ f_tried x4 = f_tried (s_files st3 f)).
          { subst x4. destruct (f_state (s_files st3 f)); cbn; repeat split; auto. }
          destruct X4 as (X4a & X4b & X4c & X4d & X4e & X4f & X4g).
          assert (X4s : f_state x4 = (if cs_eqb (f_state (s_files st f)) Running then Running else NotStarted)). { subst x4. rewrite FS3. destruct (f_state (s_files st f)) eqn:Z; cbn; congruence. }
          assert (X4c' : (f_considered x4 = f_considered (s_files st f) /\ f_state (s_files st f) <> DepsRunning) \/ (f_considered x4 = 0 /\ f_state (s_files st f) = DepsRunning)). { subst x4. rewrite FS3. destruct (f_state (s_files st f)) eqn:Z; cbn; auto; left; split; auto; discriminate. }
          destruct (soft_inv f x4 st3 st4 I3 C4) as [I4 E4].
          { unfold soft. rewrite X4a, X4b, X4c, X4d, X4e, M3, FI3. auto 10. }
          { destruct X4c' as [[K _]|[K _]]; rewrite K; [rewrite <- FC3; exact (fi_pass _ _ (proj1 I3 f))|lia]. }
          { left. exact X4g. }
          { unfold soft_state. rewrite X4s, FS3, FU3, FI3, M3. destruct (f_state (s_files st f)) eqn:Z; cbn [cs_eqb].
            - left. reflexivity.
            - right. repeat (split; [discriminate|]). intros K. destruct (fi_idle _ _ F K); congruence.
            - left. reflexivity.
            - right. repeat (split; [discriminate|]). intros K. split; [reflexivity|]. split; [apply KEEP; auto|exact PH]. }
          pose proof (wstep_trans _ _ _ _ W3 (chg_w f _ st3 st4 C4 I4 E4 (ws_seen _ _ _ W3))) as W4. pose proof (ws_ext _ _ _ W4) as E04.
          assert (SF4 : s_files st4 f = x4) by exact (ch_self _ _ _ _ C4). clearbody x4.
          assert (UF4 : f_updating (s_files st4 f) = true) by (rewrite SF4; exact X4f).
          assert (SE4 : forall g, seen st4 g). { intros g. destruct (Nat.eq_dec g f) as [->|N]; [|exact (ws_seen _ _ _ W4 g N)]. intros _. right. right. exact UF4. }
          assert (UP4 : forall g, g <> f -> f_updating (s_files st4 g) = f_updating (s_files st g)) by exact (ws_upd _ _ _ W4).
          eapply post_bind; [apply (check_loop_post f this (f_deps (s_files st4 f)) [] must Success false st4 I4 SE4)|].
          { rewrite (ex_pass _ _ E04). exact PP. } { exact DO. }
          { intros g K. destruct (Nat.eq_dec g f) as [->|N]; [apply reach_refl|]. apply R. rewrite <- (UP4 g N). exact K. }
          { rewrite (cnt_set f st st4 UF4 UP4). lia. }
          { exact (fi_deps _ _ (proj1 I4 f)). }
          { reflexivity. }
          intros [[[ds must'] dst] running] st5 (ks & []). cbn [fst snd app] in *. subst ks.
          pose proof (sp_still _ _ k_step0 f UF4) as SF5.
          pose proof (upd_chg f (with_deps ds) st5) as C6. set (st6 := upd f (with_deps ds) st5) in *.
          destruct (deps_inv f ds st5 st6 (sp_inv _ _ k_step0) C6) as [I6 E6].
          { rewrite (sl_deps _ _ _ SF5). exact (proj1 k_shape0). }
          { rewrite (sl_deps _ _ _ SF5). exact (proj2 k_shape0). }
          pose proof (wstep_trans _ _ _ _ W4 (wstep_trans _ _ _ _ (step_w _ _ _ k_step0 UF4) (chg_w f _ st5 st6 C6 I6 E6 (fun g _ => sp_seen _ _ k_step0 g)))) as W6.
          assert (SF6 : s_files st6 f = with_deps ds (s_files st5 f)) by exact (ch_self _ _ _ _ C6).
          assert (RUNF : f_updated (s_files st f) = true \/ f_state (s_files st f) = Running -> running = false).
          { intros K. apply k_idle0; [|reflexivity]. intros d0 D0'. refine (fi_all _ _ (proj1 I4 f) _ d0 D0' (or_introl _)); rewrite SF4.
            - rewrite X4s, X4d, FU3. destruct K as [K|K]; [left; exact K|right]. rewrite K. reflexivity.
            - rewrite X4e. exact (KEEP K). }
          assert (M5 : f_state (s_files st f) <> Running -> f_state (s_files st5 f) = NotStarted /\ f_updated (s_files st5 f) = f_updated (s_files st f) /\ f_mtime (s_files st5 f) = Some m).
          { intros K. assert (Z : f_state (s_files st4 f) = NotStarted). { rewrite SF4, X4s. destruct (cs_eqb (f_state (s_files st f)) Running) eqn:Y; [apply cs_eqb_eq in Y; contradiction|reflexivity]. }
            assert (ZR : f_state (s_files st4 f) <> Running) by congruence. destruct (sl_idle _ _ _ SF5 ZR) as (A & B & _). split; [congruence|]. split; [rewrite B, SF4, X4d; exact FU3|]. apply (sl_mtime _ _ _ SF5 ZR). rewrite SF4. exact X4b. }
          set (st7 := if running then upd f (with_state DepsRunning) st6 else st6).
          assert (S7 : Inv st7 /\ ext st6 st7 /\ chg f (if running then with_state DepsRunning (s_files st6 f) else s_files st6 f) st6 st7).
          { subst st7. destruct running; [|split; [exact I6|]; split; [apply ext_refl|split; auto]].
            assert (K1 : f_updated (s_files st f) = false) by (destruct (f_updated (s_files st f)); [discriminate (RUNF (or_introl eq_refl))|reflexivity]).
            assert (K2 : f_state (s_files st f) <> Running) by (intros K; discriminate (RUNF (or_intror K))).
            destruct (M5 K2) as (A & B & M). pose proof (upd_chg f (with_state DepsRunning) st6) as C. destruct (soft_inv f _ st6 _ I6 C) as [I7 E7].
            - repeat split.
            - cbn. exact (fi_pass _ _ (proj1 I6 f)).
            - left. reflexivity.
            - right. rewrite SF6. cbn. rewrite A, B, M, K1. repeat (split; [discriminate|]). discriminate.
            - auto. }
          clearbody st7. destruct S7 as (I7 & E7 & C7).
          pose proof (upd_chg f (with_updating false) st7) as C8. set (st8 := upd f (with_updating false) st7) in *.
          destruct (soft_inv f _ st7 st8 I7 C8) as [I8 E8]; [repeat split|cbn; exact (fi_pass _ _ (proj1 I7 f))|left; reflexivity|left; reflexivity|].
          pose proof (wstep_trans _ _ _ _ W6 (chg_w f _ st6 st7 C7 I7 E7 (ws_seen _ _ _ W6))) as W7.
          pose proof (wstep_trans _ _ _ _ W7 (chg_w f _ st7 st8 C8 I8 E8 (ws_seen _ _ _ W7))) as W8. pose proof (ws_ext _ _ _ W8) as E08.
          assert (E58 : ext st5 st8) by exact (ext_trans _ _ _ E6 (ext_trans _ _ _ E7 E8)).
          assert (SF8 : s_files st8 f = with_updating false (if running then with_state DepsRunning (s_files st6 f) else s_files st6 f)) by (rewrite (ch_self _ _ _ _ C8), (ch_self _ _ _ _ C7); reflexivity).
          assert (B8 : running = false -> f_state (s_files st f) <> Running -> ~ busyp st8 f). { intros RF NR [B|B]; rewrite SF8, RF, SF6 in B; cbn in B; destruct (M5 NR) as (A & _); congruence. }
          assert (LIV : quiet st st8 -> L st -> ~ busyp st8 f).
          { intros Qu LL. apply B8.
            - destruct (quiet_split _ _ _ E04 (ext_trans _ _ _ (sp_ext _ _ k_step0) E58) Qu) as [Q1 Q2]. destruct (quiet_split _ _ _ (sp_ext _ _ k_step0) E58 Q2) as [Q3 _]. apply k_live0; auto. apply (L_Lx f _ UF4). apply (ws_live _ _ _ W4 Q1). split; [exact (proj1 LL)|]. intros g _. exact (proj2 LL g).
            - intros K. apply (fi_jobs _ _ F) in K. rewrite (proj1 LL) in K. destruct K. }
          cbn [post fst snd]. split; cbn [fst snd]; auto.
          * apply (w_step1 f st st8 W8 UF); [rewrite SF8; reflexivity| |].
            -- unfold seen, busyp. rewrite (ex_pass _ _ E08), SF8. destruct running; [cbn; auto|]. rewrite SF6. cbn. rewrite (sl_cons _ _ _ SF5), SF4. intros K. destruct X4c' as [[Z ZD]|[Z _]]; [|exfalso; lia]. rewrite Z in K. destruct (SEf K) as [Y|[Y|Y]].
               ++ left. exact (upd_ext _ _ _ (sp_ext _ _ k_step0) (upd_ext _ _ _ E04 Y)).
               ++ assert (Y4 : f_state (s_files st4 f) = Running) by (rewrite SF4, X4s, Y; reflexivity). destruct (sl_run _ _ _ SF5 Y4) as [X|X]; [right; left; left; exact X|left; exact (fi_fin _ _ (proj1 (sp_inv _ _ k_step0) f) X)].
               ++ contradiction.
            -- intros Qu LL (_ & _ & K). apply (LIV Qu LL). right. exact K.
          * intros B. apply (blame_ext st5 st8 f E58). destruct (k_bad0 B) as [K|K]; [discriminate|exact K].
          * intros O N MT'. destruct (k_why0 O N MT') as [K|(d & D & K)]; [left; exact K|right]. apply (reason_ext st5 st8 this f E58). exact (r_intermediate _ _ _ _ _ _ f d (fi_inter _ _ F IT) D K).
          * intros K. apply B8; [apply RUNF; left; exact K|]. intros Z. destruct (fi_idle _ _ F K); congruence.
    Qed.
  End Loops.

  Notation engine := (engine phony is_target cmds blank double base chain keep_going always how world).
  Lemma engine_post : forall n, spec_one n (fst (engine n)) /\ spec_check n (snd (engine n)).
  Proof.
    intros n. induction n as [|n [IH1 IH2]].
    - split; [intros f st _ _ _ _ _ K|intros f this must st _ _ _ _ _ _ K]; exfalso; lia.
    - cbn [M_Build.engine fst snd]. split.
      + intros f st. exact (one_post n _ _ IH1 IH2 f st).
      + intros f this must st. exact (check_post n _ _ IH1 IH2 f this must st).
  Qed.

  (** The goals. *)
  Definition calm (st : state) : Prop := forall g, f_updating (s_files st g) = false.
  Lemma filter_len : forall (p : nat -> bool) l, length (filter p l) <= length l.
  Proof. intros p l. induction l as [|a l IH]; cbn [filter length]; [lia|]. destruct (p a); cbn [length]; lia. Qed.
  Lemma cnt_max : forall f st, dom f -> cnt1 f st < N0.
  Proof.
    intros f st [DO _]. unfold cnt1. assert (E : S (length (filter (fun g => negb (g =? f) && negb (f_updating (s_files st g))) (seq 0 N0))) <= length (seq 0 N0)); [|rewrite seq_length in E; exact E].
    assert (IN : In f (seq 0 N0)) by (apply in_seq; lia). induction (seq 0 N0) as [|a l IH]; [destruct IN|]. cbn [filter length]. pose proof (filter_len (fun g => negb (g =? f) && negb (f_updating (s_files st g))) l) as LE.
    destruct IN as [->|IN]; [rewrite Nat.eqb_refl; cbn [negb andb]; lia|]. specialize (IH IN). destruct (negb (a =? f) && negb (f_updating (s_files st a))); cbn [length]; lia.
  Qed.
  Record goaled (st st' : state) : Prop := mkgoaled {
    g_inv : Inv st';
    g_ext : ext st st';
    g_calm : calm st';
    g_seen : forall g, seen st' g;
    g_live : quiet st st' -> L st -> L st' }.
  Lemma goaled_refl : forall st, Inv st -> calm st -> (forall g, seen st g) -> goaled st st.
  Proof. intros st I C SE. split; auto. apply ext_refl. Qed.
  Lemma goaled_trans : forall a b c, goaled a b -> goaled b c -> goaled a c.
  Proof. intros a b c [] []. split; auto; [exact (ext_trans _ _ _ g_ext0 g_ext1)|]. intros Qu. destruct (quiet_split _ _ _ g_ext0 g_ext1 Qu). auto. Qed.

  Lemma goal_post : forall fuel g st, Inv st -> calm st -> (forall h, seen st h) -> 0 < s_pass st -> dom g -> 2 * N0 + 2 <= fuel ->
    post (update_file base chain keep_going (fst (engine fuel)) g st) (fun u st' => goaled st st' /\ (f_updated (s_files st' g) = true \/ busyp st' g) /\ (bad u = true -> f_updated (s_files st' g) = true) /\ (quiet st st' -> L st -> f_updated (s_files st' g) = true)).
  Proof.
    intros fuel g st I CA SE PP DO FU.
    assert (SEg : f_considered (s_files st g) = s_pass st -> f_updated (s_files st g) = true \/ busyp st g). { intros K. destruct (SE g K) as [Z|[Z|Z]]; auto. rewrite CA in Z. discriminate. }
    assert (CASE : (f_considered (s_files st g) = s_pass st /\ f_state (s_files st g) = DepsRunning) \/ (f_considered (s_files st g) = s_pass st -> f_state (s_files st g) <> DepsRunning)).
    { destruct (Nat.eq_dec (f_considered (s_files st g)) (s_pass st)) as [A|A]; [|right; intros K; contradiction]. destruct (f_state (s_files st g)) eqn:Z; [right; discriminate|left; auto|right; discriminate|right; discriminate]. }
    destruct CASE as [[A B]|CASE].
    - unfold update_file. cbv beta zeta. apply Nat.eqb_eq in A. rewrite A. rewrite B. cbn [cs_eqb post]. split; [apply goaled_refl; assumption|]. split; [right; right; exact B|]. split; [discriminate|]. intros _ [_ W]. exfalso. apply (W g). apply Nat.eqb_eq in A. split; auto.
    - pose proof (cnt_max g st DO). eapply post_weak; [apply (update_file_post fuel _ (proj1 (engine_post fuel)) g st I)|]; auto.
      + intros h K. rewrite CA in K. discriminate.
      + lia.
      + intros u st' []. assert (CA' : calm st'). { intros h. destruct (Nat.eq_dec h g) as [->|N]; [destruct o_updf0 as [K|K]; [exact K|rewrite K; apply CA]|]. rewrite (o_upd0 h N). apply CA. }
        split; [|split; [exact o_done0|split; [intros B; apply o_bad0; exact B|]]].
        * split; auto.
          -- intros h. destruct (Nat.eq_dec h g) as [->|N]; [|exact (o_seen0 h N)]. intros _. destruct o_done0; auto.
          -- intros Qu [J W]. destruct (o_live0 Qu (conj J (fun h _ => W h))) as [[J' W'] NB]. split; [exact J'|]. intros h. destruct (Nat.eq_dec h g) as [->|N]; [|exact (W' h N)]. intros (_ & _ & K). apply NB. right. exact K.
        * intros Qu [J W]. destruct (o_live0 Qu (conj J (fun h _ => W h))) as [_ NB]. destruct o_done0; [assumption|contradiction].
  Qed.

  Lemma goals_post : forall fuel gs status st, Inv st -> calm st -> (forall h, seen st h) -> 0 < s_pass st -> (forall g, In g gs -> dom g) -> 2 * N0 + 2 <= fuel ->
    post (goals_pass phony is_target cmds blank double base chain keep_going always how world fuel gs status st) (fun r st' => let '(s, rest, stop) := r in
      goaled st st' /\ stop = false /\ (forall g, In g rest -> In g gs) /\ (forall g, In g gs -> In g rest \/ f_updated (s_files st' g) = true) /\
      (us_rank s < 2 -> us_rank status < 2 /\ forall g, In g gs -> In g rest \/ (f_updated (s_files st' g) = true /\ f_status (s_files st' g) = Success)) /\
      (2 <= us_rank s -> s = status \/ exists g, In g gs /\ f_updated (s_files st' g) = true /\ f_status (s_files st' g) = s) /\
      (quiet st st' -> L st -> rest = [])).
  Proof.
    intros fuel gs. induction gs as [|g gs IH]; intros status st I CA SE PP DO FU.
    - cbn [goals_pass post]. split; [apply goaled_refl; assumption|]. split; [reflexivity|]. split; [auto|]. split; [intros g []|]. split; [intros K; split; [exact K|intros g []]|]. split; [auto|auto].
    - cbn [goals_pass goal_entries]. eapply post_bind.
      + eapply post_bind; [apply (goal_post fuel g st I CA SE PP (DO g (or_introl eq_refl)) FU)|]. intros u st1 H. set (x := s_files st1 g) in *.
        set (hit := (bad u || f_updated x) && (us_rank status <? 2) && bad (f_status x)).
        assert (STOP : hit && negb keep_going && match how with Ask => true | _ => false end = false).
        { destruct MODE as [M|[M|M]]; rewrite M; [rewrite Bool.andb_false_r; reflexivity|apply Bool.andb_false_r|apply Bool.andb_false_r]. }
        cbv zeta. fold hit. rewrite STOP. cbn [post orb].
        instantiate (1 := fun r st1 => snd r = false /\ exists u, (goaled st st1 /\ (f_updated (s_files st1 g) = true \/ busyp st1 g) /\ (bad u = true -> f_updated (s_files st1 g) = true) /\ (quiet st st1 -> L st -> f_updated (s_files st1 g) = true)) /\
          snd (fst r) = negb (f_updated (s_files st1 g)) /\ fst (fst r) = (if (bad u || f_updated (s_files st1 g)) && (us_rank status <? 2) && bad (f_status (s_files st1 g)) then f_status (s_files st1 g) else status)).
        cbn [fst snd]. split; [reflexivity|]. exists u. split; [exact H|]. split; reflexivity.
      + intros [[s1 und] stop] st1 (K & u & (G1 & DN & BA & LI) & K2 & K3). cbn [fst snd] in *. subst stop. cbv beta iota.
        eapply post_bind; [apply (IH s1 st1 (g_inv _ _ G1) (g_calm _ _ G1) (g_seen _ _ G1))|]; auto.
        * rewrite (ex_pass _ _ (g_ext _ _ G1)). exact PP.
        * intros h H. apply DO. right. exact H.
        * intros [[s2 rest] stop2] st2 (G2 & -> & R1 & R2 & R3 & R4 & R5). cbn [post]. pose proof (g_ext _ _ G2) as E2. split; [exact (goaled_trans _ _ _ G1 G2)|]. split; [reflexivity|].
          assert (S1 : f_updated (s_files st1 g) = true -> us_rank s1 < 2 -> f_status (s_files st1 g) = Success).
          { intros U K. rewrite K3 in K. destruct (us_rank status <? 2) eqn:RK; [|rewrite Bool.andb_false_r in K; cbn [andb] in K; apply Nat.ltb_ge in RK; lia]. rewrite U, Bool.orb_true_r in K. cbn [andb] in K. apply not_bad. destruct (bad (f_status (s_files st1 g))) eqn:B; [|reflexivity]. exfalso.
            pose proof (proj1 (fi_status _ _ (proj1 (g_inv _ _ G1) g)) U) as NA. destruct (f_status (s_files st1 g)); cbn in *; try discriminate; try lia; congruence. }
          assert (S0 : us_rank s1 < 2 -> us_rank status < 2).
          { rewrite K3. destruct (us_rank status <? 2) eqn:RK; [intros _; apply Nat.ltb_lt; exact RK|]. rewrite Bool.andb_false_r. cbn [andb]. auto. }
          assert (S2 : 2 <= us_rank s1 -> s1 = status \/ (f_updated (s_files st1 g) = true /\ f_status (s_files st1 g) = s1)).
          { rewrite K3. destruct ((bad u || f_updated (s_files st1 g)) && (us_rank status <? 2) && bad (f_status (s_files st1 g))) eqn:HI; [|auto]. intros _. right. split; [|reflexivity]. apply Bool.andb_true_iff in HI. destruct HI as [HI _]. apply Bool.andb_true_iff in HI. destruct HI as [HI _]. apply Bool.orb_true_iff in HI. destruct HI; auto. }
          assert (RST : In g (if und then g :: rest else rest) \/ f_updated (s_files st1 g) = true). { rewrite K2. destruct (f_updated (s_files st1 g)); [auto|left; left; reflexivity]. }
          assert (SUB : forall h, In h rest -> In h (if und then g :: rest else rest)) by (intros h H; destruct und; [right|]; exact H).
          split; [|split; [|split; [|split]]].
          -- intros h H. destruct und; [destruct H as [<-|H]; [left; reflexivity|]|]; right; auto.
          -- intros h [<-|H]; [destruct RST as [Z|Z]; [left; exact Z|right; exact (upd_ext _ _ _ E2 Z)]|]. destruct (R2 h H); auto.
          -- intros K. destruct (R3 K) as [Z1 Z2]. split; [exact (S0 Z1)|]. intros h [<-|H]; [|destruct (Z2 h H); auto]. destruct RST as [Z|Z]; [left; exact Z|right]. exact (well_ext st1 st2 g E2 (conj Z (S1 Z Z1))).
          -- intros K. destruct (R4 K) as [->|(h & H & Z)]; [|right; exists h; split; [right; exact H|exact Z]]. destruct (S2 K) as [Z|[Z1 Z2]]; [left; exact Z|right]. exists g. split; [left; reflexivity|]. destruct (ex_upd _ _ E2 g Z1) as [A B]. split; [exact A|congruence].
          -- intros Qu LL. destruct (quiet_split _ _ _ (g_ext _ _ G1) E2 Qu) as [Q1 Q2]. rewrite (R5 Q2 (g_live _ _ G1 Q1 LL)). rewrite K2, (LI Q1 LL). reflexivity.
  Qed.

  (** The next pass. *)
  Definition bump (st : state) : state := mkstate (s_files st) (s_disk st) (s_jobs st) (s_clock st) (s_trace st) (S (s_pass st)).
  Lemma bump_inv : forall st, Inv st -> Inv (bump st).
  Proof.
    intros st [F GG]. split; [|destruct GG; split; assumption]. intros f. destruct (F f). split; try assumption. cbn. lia.
  Qed.
  Lemma work_max : forall st, Inv st -> work (s_trace st) <= 2 * N0.
  Proof.
    intros st [_ []]. destruct gi_ends0 as [E1 E2]. unfold work.
    assert (A : length (starts (s_trace st)) <= N0). { rewrite <- (seq_length N0 0). apply NoDup_incl_length; [exact gi_once0|]. intros f K. apply starts_in in K. apply in_seq. destruct (gi_dom0 f K) as [[K1 _] _]. lia. }
    assert (B : length (finishes (s_trace st)) <= N0).
    { rewrite <- (seq_length N0 0). apply NoDup_incl_length; [exact E1|]. intros f K. apply finishes_in in K. destruct K as (ok & K). apply in_split in K. destruct K as (t2 & t1 & T). pose proof (E2 t2 f ok t1 T) as K.
      assert (K' : In (Start f) (s_trace st)) by (rewrite T; apply in_or_app; right; right; exact K). apply in_seq. destruct (gi_dom0 f K') as [[K1 _] _]. lia. }
    lia.
  Qed.
  Definition late (st st' : state) : Prop := forall g, f_updated (s_files st g) = true -> f_updated (s_files st' g) = true /\ f_status (s_files st' g) = f_status (s_files st g).
  Lemma update_goals_post : forall passes fuel gs status st, Inv st -> calm st -> (forall g, f_considered (s_files st g) < s_pass st) -> (forall g, In g gs -> dom g) -> 2 * N0 + 2 <= fuel ->
    1 <= passes -> (how = Normal -> clock0 + 2 * N0 + 1 <= s_clock st + passes) ->
    post (update_goals phony is_target cmds blank double base chain keep_going always how world passes fuel gs status st) (fun s st' =>
      Inv st' /\ late st st' /\ (forall g, In g gs -> f_updated (s_files st' g) = true) /\
      (us_rank s < 2 -> us_rank status < 2 /\ forall g, In g gs -> f_status (s_files st' g) = Success) /\
      (2 <= us_rank s -> s = status \/ exists g, In g gs /\ f_status (s_files st' g) = s)).
  Proof.
    intros passes. induction passes as [|passes IH]; intros fuel gs status st I CA CO DO FU P1 PC; [lia|].
    assert (NIL : gs = [] \/ gs <> []) by (destruct gs; [left; reflexivity|right; discriminate]).
    destruct NIL as [->|NN].
    { cbn [update_goals post]. split; [exact I|]. split; [intros g K; auto|]. split; [intros g []|]. split; [intros K; split; [exact K|intros g []]|auto]. }
    cbn [update_goals]. replace (match gs with [] => Ok status st | _ => _ end) with (bind (reaps phony is_target cmds double base chain keep_going how world (S (t_after (world (s_clock st)))) st) (fun _ st =>
      bind (goals_pass phony is_target cmds blank double base chain keep_going always how world fuel gs status st) (fun r st => let '(status, rest, stop) := r in
        let st := if stop then st else mkstate (s_files st) (s_disk st) (s_jobs st) (s_clock st) (s_trace st) (S (s_pass st)) in
        update_goals phony is_target cmds blank double base chain keep_going always how world passes fuel rest status st))) by (destruct gs; [contradiction|reflexivity]).
    eapply post_bind; [apply (reaps_more (t_after (world (s_clock st))) st I)|]. intros _ st1 [R1 M1]. pose proof (re_ext _ _ R1) as E1. pose proof (ex_pass _ _ E1) as P01.
    assert (CA1 : calm st1) by (intros g; rewrite (re_updating _ _ R1); apply CA).
    assert (CO1 : forall g, f_considered (s_files st1 g) < s_pass st1) by (intros g; rewrite (re_cons _ _ R1), P01; apply CO).
    assert (SE1 : forall g, seen st1 g) by (intros g K; specialize (CO1 g); lia).
    assert (PP1 : 0 < s_pass st1) by (specialize (CO1 0); lia).
    eapply post_bind; [apply (goals_post fuel gs status st1 (re_inv _ _ R1) CA1 SE1 PP1 DO FU)|]. intros [[s rest] stop] st2 (G2 & -> & RS & RA & RL & RB & RQ). cbv iota beta zeta. fold (bump st2).
    pose proof (g_ext _ _ G2) as E2. pose proof (g_inv _ _ G2) as I2.
    assert (LA : late st (bump st2)) by (intros g K; apply (ex_upd _ _ (ext_trans _ _ _ E1 E2)); exact K).
    destruct rest as [|r0 rest].
    { replace (update_goals phony is_target cmds blank double base chain keep_going always how world passes fuel [] s (bump st2)) with (Ok s (bump st2)) by (destruct passes; reflexivity). cbn [post].
      split; [apply bump_inv; exact I2|]. split; [exact LA|]. split; [intros g K; destruct (RA g K) as [[]|Z]; exact Z|]. split.
      - intros K. destruct (RL K) as [Z1 Z2]. split; [exact Z1|]. intros g H. destruct (Z2 g H) as [[]|[_ Z]]; exact Z.
      - intros K. destruct (RB K) as [Z|(g & H & _ & Z)]; [left; exact Z|right; exists g; auto]. }
    (* something has happened *)
    assert (MOVE : how = Normal /\ s_clock st < s_clock st2).
    { pose proof (ex_clock _ _ E1) as K1. pose proof (ex_clock _ _ E2) as K2. assert (HD : how = Normal \/ how <> Normal) by (destruct how; auto; right; discriminate).
      assert (NQ : s_jobs st = [] -> ~ quiet st1 st2).
      { intros J Qu. pose proof (re_nothing _ _ R1 J) as ->. assert (LL : L st) by (split; [exact J|]; intros g (K & _); specialize (CO g); lia). discriminate (RQ Qu LL). }
      destruct HD as [HD|HD]; [|exfalso; apply NQ; [exact (gi_mode _ (proj2 I) HD)|left; exact HD]]. split; [exact HD|]. destruct (s_jobs st) as [|j js] eqn:J.
      - destruct (Nat.eq_dec (s_clock st2) (s_clock st1)) as [Z|Z]; [exfalso; apply NQ; [reflexivity|right; exact Z]|]. lia.
      - assert (Z : j :: js <> []) by discriminate. specialize (M1 Z). lia. }
    destruct MOVE as [HN MV]. pose proof (gi_clock _ (proj2 I2) HN) as CK. pose proof (work_max st2 I2) as WM. specialize (PC HN).
    eapply post_weak; [apply (IH fuel (r0 :: rest) s (bump st2) (bump_inv _ I2))|].
    - exact (g_calm _ _ G2).
    - intros g. pose proof (fi_pass _ _ (proj1 I2 g)). cbn. lia.
    - intros g K. apply DO. apply RS. exact K.
    - exact FU.
    - lia.
    - intros _. cbn [bump s_clock]. lia.
    - intros s' st' (I' & LA' & H1 & H2 & H3). split; [exact I'|].
      assert (LL : late st st') by (intros g K; destruct (LA g K) as [A B]; destruct (LA' g A) as [A' B']; split; [exact A'|congruence]). split; [exact LL|]. split; [|split].
      + intros g K. destruct (RA g K) as [Z|Z]; [exact (H1 g Z)|]. exact (proj1 (LA' g Z)).
      + intros K. destruct (H2 K) as [Z1 Z2]. destruct (RL Z1) as [Y1 Y2]. split; [exact Y1|]. intros g H. destruct (Y2 g H) as [Z|[Za Zb]]; [exact (Z2 g Z)|]. destruct (LA' g Za) as [_ B]. cbn [bump s_files] in B. congruence.
      + intros K. destruct (H3 K) as [->|(g & H & Z)].
        * destruct (RB K) as [Z|(g & H & Z1 & Z2)]; [left; exact Z|right]. exists g. split; [exact H|]. destruct (LA' g Z1) as [_ B]. cbn [bump s_files] in B. congruence.
        * right. exists g. split; [exact (RS g H)|exact Z].
  Qed.

  (** The beginning. *)
  Notation begin := (initial G phony inter tried disk clock0).
  Lemma begin_inv : Inv begin.
  Proof.
    split.
    - intros f. split; cbn; try discriminate; try (intros; contradiction); auto.
      + split; [intros []|discriminate].
      + split; [discriminate|intros K; exfalso; apply K; reflexivity].
      + intros PH. rewrite PH. reflexivity.
      + intros d D. exists d. auto.
      + congruence.
      + intros O N m K. destruct (phony f); [left; reflexivity|discriminate].
      + intros [[K _]|K]; discriminate.
      + intros [K|K]; discriminate.
      + destruct (phony f); auto.
      + intros N m K. destruct (phony f); [left; reflexivity|discriminate].
    - assert (NE : forall (t2 t1 : list event) e, [] <> t2 ++ e :: t1) by (intros t2 t1 e E; destruct t2; discriminate).
      apply mkGI; cbn [initial s_jobs s_trace s_clock starts finishes].
      + constructor.
      + reflexivity.
      + reflexivity.
      + intros _ f [].
      + constructor.
      + split; [constructor|]. intros t2 f ok t1 E. destruct (NE _ _ _ E).
      + intros f [].
      + intros f [].
      + intros _. cbn. lia.
      + intros t2 f t1 d o E. destruct (NE _ _ _ E).
      + intros O N t2 e f t1 E. destruct (NE _ _ _ E).
      + intros f d [].
  Qed.
  Theorem build_post : forall passes fuel gs, (forall g, In g gs -> dom g) -> 2 * N0 + 2 <= fuel -> 2 * N0 + 1 <= passes ->
    post (update_goal_chain phony is_target cmds blank double base chain keep_going always how world passes fuel gs begin) (fun s st' =>
      Inv st' /\ (forall g, In g gs -> f_updated (s_files st' g) = true) /\
      (us_rank s < 2 -> forall g, In g gs -> f_status (s_files st' g) = Success) /\
      (2 <= us_rank s -> exists g, In g gs /\ f_status (s_files st' g) = s)).
  Proof.
    intros passes fuel gs DO FU PA. unfold update_goal_chain. fold (bump begin). eapply post_weak; [apply (update_goals_post passes fuel gs NoAttempt (bump begin) (bump_inv _ begin_inv))|]; auto.
    - intros g. reflexivity.
    - lia.
    - intros _. cbn. lia.
    - intros s st' (I & _ & A & B & C). split; [exact I|]. split; [exact A|]. split; [intros K; apply B; exact K|]. intros K. destruct (C K) as [->|Z]; [cbn in K; lia|exact Z].
  Qed.
End Build.
