(** The build engine (C27, C28, C29, C51).  [fits] is in S_Build: the files reachable from the goals
    are finitely many, and the limits shown to be needed by the witnesses at the end. *)
From Verif Require Import Base M_Build S_Build P_Notice P_Build P_Made P_Quiet S_BuildExamples P_Question.

Section Any.
  Variable m : make.
  Variable disk : nat -> time.
  Variable N clock passes fuel : nat.
  Variable goals : list nat.
  Hypothesis FITS : fits m disk N goals.
  Hypothesis FUEL : 2 * N + 2 <= fuel.
  Hypothesis PASSES : 2 * N + 1 <= passes.
  Notation run := (build m disk clock passes fuel goals).
  Notation G := (m_deps m).

  (** Make ends: the depth of its recursion and the number of its walks over the goals are bounded
      by the number of files, whatever the graph (circles too) and however the jobs end. *)
  Theorem C27_ends : run <> Out.
  Proof. pose proof (final m disk N clock goals FITS passes fuel FUEL PASSES) as K. intros E. rewrite E in K. exact K. Qed.

  (** No recipe is started twice; what ends has started; only recipes of files that the goals
      depend on are started; "no rule" is said only of files that have none. *)
  Theorem C27_once : forall st, leaves run st ->
    NoDup (starts (s_trace st)) /\ NoDup (finishes (s_trace st)) /\
    (forall t2 f ok t1, s_trace st = t2 ++ Finish f ok :: t1 -> In (Start f) t1) /\
    (forall f, In (Start f) (s_trace st) -> wanted m goals f /\ m_cmds m f = true /\ m_blank m f = false) /\
    (forall f, In (NoRule f) (s_trace st) -> wanted m goals f /\ m_cmds m f = false /\ m_target m f = false /\ m_phony m f = false).
  Proof.
    intros st L. pose proof (leaves_GI m disk N clock goals FITS passes fuel st FUEL PASSES L) as I.
    split; [exact (gi_once I)|]. split; [exact (proj1 (gi_ends I))|]. split; [exact (proj2 (gi_ends I))|]. split.
    - intros f K. destruct (gi_dom I f K) as [[_ W] [C B]]. auto.
    - intros f K. destruct (gi_norule I f K) as [[_ W] C]. auto.
  Qed.

  (** When a recipe starts, every prerequisite that was not dropped has been brought up to date: if
      its recipe is run at all, it has ended by then, and well. *)
  Theorem C27_order : forall st, leaves run st -> ordered G (s_trace st).
  Proof.
    intros st L t2 f t1 d o T E. destruct (gi_order (leaves_GI m disk N clock goals FITS passes fuel st FUEL PASSES L) t2 f t1 d o T E) as [K|[_ K]]; auto.
  Qed.
  (** A recipe is started only for a reason. *)
  Theorem C27_needed : forall st, leaves run st -> m_how m = Normal -> writes_own m -> justified G (m_inter m) (m_phony m) disk (m_always m) (m_double m) (s_trace st).
  Proof. intros st L HN OW. exact (gi_need (leaves_GI m disk N clock goals FITS passes fuel st FUEL PASSES L) OW HN). Qed.
  (** Only circular prerequisites are dropped. *)
  Theorem C27_drops : forall st, leaves run st -> drops_cycles G (s_trace st).
  Proof. intros st L. exact (gi_drop (leaves_GI m disk N clock goals FITS passes fuel st FUEL PASSES L)). Qed.
  (** If make says that all went well, then every file the goals need is up to date on the disk. *)
  Theorem C27_complete : forall s st, run = Ok s st -> fine s -> m_how m = Normal -> writes_own m -> forall g f, In g goals -> needs G (m_inter m) (m_phony m) (s_trace st) g f ->
    accomplished G (m_inter m) (m_phony m) (m_cmds m) (m_blank m) (m_target m) (s_trace st) (s_disk st) f.
  Proof.
    intros s st R FI HN OW g f GO NE. pose proof (final m disk N clock goals FITS passes fuel FUEL PASSES) as K. rewrite R in K.
    destruct (needs_well m disk N clock goals s st K g f GO (proj1 (proj2 (proj2 K)) FI g GO) NE) as [U SU]. exact (well_accomplished m disk N clock goals s st K HN OW f U SU).
  Qed.

  (** When a recipe starts, its prerequisites are there, the intermediate ones too. *)
  Theorem C27_present : forall st, leaves run st -> (m_how m = Normal -> writes_own m) -> present G (m_phony m) disk (m_cmds m) (m_blank m) (m_target m) (s_trace st).
  Proof. intros st L OW. exact (leaves_present m disk N clock goals FITS passes fuel st FUEL PASSES OW L). Qed.
  (** What -n does not print need not be made, and -q says that nothing need be made only if that is so:
      a file whose recipe is not printed is there, its prerequisites are there and not newer, and their
      recipes are not printed.  With -n -k this holds of every file that is not hopeless. *)
  Theorem C51_foreseen : forall s st, run = Ok s st -> m_how m = Dry \/ m_how m = Ask -> (forall f, disk f <> New) -> forall g f, In g goals -> needs G (m_inter m) (m_phony m) (s_trace st) g f ->
    (fine s -> foreseen G (m_inter m) (m_phony m) disk (m_cmds m) (m_blank m) (m_target m) (s_trace st) f) /\
    (m_how m = Dry -> hopeless G (s_trace st) f \/ foreseen G (m_inter m) (m_phony m) disk (m_cmds m) (m_blank m) (m_target m) (s_trace st) f).
  Proof.
    intros s st R HD NN g f GO NE. pose proof (final m disk N clock goals FITS passes fuel FUEL PASSES) as K. rewrite R in K. split.
    - intros FI. destruct (needs_well m disk N clock goals s st K g f GO (proj1 (proj2 (proj2 K)) FI g GO) NE) as [U SU]. exact (well_foreseen m disk N clock goals s st K HD NN f U SU).
    - intros HY. pose proof (needs_updated m disk N clock goals s st K g f GO NE) as U.
      destruct (over_bad m disk N clock goals s st K f U) as [Z|[Z|[Z|Z]]]; [right; exact (well_foreseen m disk N clock goals s st K HD NN f U Z)| | |left; exact Z]; congruence.
  Qed.

  (** Nothing is started that has, through prerequisites that were not dropped and are not
      intermediate, a failed one. *)
  Theorem C29_contained : forall st, leaves run st -> contained G (m_inter m) (m_phony m) (s_trace st).
  Proof. exact (fun st => leaves_contained m disk N clock goals FITS passes fuel st FUEL PASSES). Qed.
  (** Without -k make starts nothing after a failure; it exits with an error at once, and only then. *)
  Theorem C29_stop : m_keep m = false ->
    (forall st, leaves run st -> stops (s_trace st)) /\
    (forall s st, run = Ok s st -> fine s /\ forall e, In e (s_trace st) -> ~ failure e) /\
    (forall st, run = Die st -> exists e t, s_trace st = e :: t /\ failure e).
  Proof.
    intros KG. pose proof (final m disk N clock goals FITS passes fuel FUEL PASSES) as K. split; [|split].
    - intros st. exact (leaves_stops m disk N clock goals FITS passes fuel st FUEL PASSES KG).
    - intros s st R. rewrite R in K. split; [exact (over_keep m disk N clock goals FITS s st K KG)|].
      intros e IN FA. refine (no_failure _ _ _ _ _ _ _ _ _ _ _ _ _ _ _ _ _ st (proj1 K) KG e FA IN). exact (proj1 (proj2 (proj2 FITS))).
    - intros st R. rewrite R in K. destruct K as (_ & _ & _ & _ & e & t & T & FA & _). exists e, t. auto.
  Qed.
  (** With -k make goes on: whatever can be made is made; all goes well just if no goal is hopeless. *)
  Theorem C29_keep_going : m_keep m = true -> exists s st, run = Ok s st /\
    (m_how m = Normal -> writes_own m -> forall g f, In g goals -> needs G (m_inter m) (m_phony m) (s_trace st) g f ->
      hopeless G (s_trace st) f \/ accomplished G (m_inter m) (m_phony m) (m_cmds m) (m_blank m) (m_target m) (s_trace st) (s_disk st) f) /\
    (fine s -> forall g, In g goals -> ~ doomed G (m_inter m) (m_phony m) (s_trace st) g) /\
    (m_how m = Normal \/ m_how m = Dry -> ~ fine s -> exists g, In g goals /\ hopeless G (s_trace st) g).
  Proof.
    intros KG. pose proof (final m disk N clock goals FITS passes fuel FUEL PASSES) as K. destruct run as [s st|st|] eqn:R; [|destruct K as [K _]; congruence|destruct K].
    exists s, st. split; [reflexivity|]. split; [|split].
    - intros HN OW g f GO NE. pose proof (needs_updated m disk N clock goals s st K g f GO NE) as U.
      destruct (over_bad m disk N clock goals s st K f U) as [Z|[Z|[Z|Z]]]; [right; exact (well_accomplished m disk N clock goals s st K HN OW f U Z)| | |left; exact Z]; congruence.
    - intros FI g GO. apply (over_not_doomed m disk N clock goals s st K); [exact (proj1 (proj2 K) g GO)|exact (proj1 (proj2 (proj2 K)) FI g GO)].
    - intros HW NF. destruct (proj2 (proj2 (proj2 K))) as (g & GO & SG); [unfold fine in NF; lia|]. exists g. split; [exact GO|].
      destruct (over_bad m disk N clock goals s st K g (proj1 (proj2 K) g GO)) as [Z|[Z|[Z|Z]]]; [| | |exact Z]; try (destruct HW; congruence). exfalso. apply NF. rewrite <- SG, Z. unfold fine. cbn. lia.
  Qed.
End Any.
Print Assumptions C27_ends.
Print Assumptions C27_once.
Print Assumptions C27_order.
Print Assumptions C27_needed.
Print Assumptions C27_drops.
Print Assumptions C27_complete.
Print Assumptions C27_present.
Print Assumptions C51_foreseen.
Print Assumptions C29_contained.
Print Assumptions C29_stop.
Print Assumptions C29_keep_going.

(** After a build that went well a second one does nothing and goes well.  The recipes have left
    their targets, and not with an old time; nothing is intermediate, circular or a double-colon rule;
    phony targets have no recipes, and files have no phony prerequisites (else the second build
    rightly does something). *)
Theorem C28_second : forall m N disk clock1 clock2 passes1 passes2 fuel1 fuel2 goals goals2 s st,
  fits m disk N goals -> 2 * N + 2 <= fuel1 -> 2 * N + 1 <= passes1 -> 2 * N + 2 <= fuel2 -> 2 * N + 1 <= passes2 ->
  m_how m = Normal -> m_always m = false -> (forall f, m_double m f = false) -> (forall f, m_inter m f = false) -> writes_own m -> writes_new m ->
  (forall f d o, edge (m_deps m) f d o -> ~ reach (m_deps m) d f) ->
  (forall f, wanted m goals f -> m_phony m f = true -> m_cmds m f = false) ->
  (forall f d, wanted m goals f -> m_phony m f = false -> edge (m_deps m) f d false -> m_phony m d = false) ->
  build m disk clock1 passes1 fuel1 goals = Ok s st -> fine s ->
  (forall f, wanted m goals f -> m_phony m f = false -> s_disk st f <> Absent) ->
  (forall g, In g goals2 -> wanted m goals g) ->
  exists s' st', build m (s_disk st) clock2 passes2 fuel2 goals2 = Ok s' st' /\ fine s' /\ s_trace st' = [] /\ forall f, s_disk st' f = s_disk st f.
Proof.
  intros m N disk clock1 clock2 passes1 passes2 fuel1 fuel2 goals goals2 s st FITS F1 P1 F2 P2 HN AL DB NI OW WN AC PC PD RUN GOOD THERE GO2.
  exact (second_ok m N disk clock1 clock2 passes1 passes2 fuel1 fuel2 goals goals2 s st FITS F1 P1 F2 P2 HN AL DB NI OW WN AC PC PD RUN GOOD THERE GO2).
Qed.
Print Assumptions C28_second.

(** -n and -q change nothing, -q and -t run nothing, -t writes only files that have recipes and are
    not phony: whatever the makefile. *)
Section Modes.
  Variable phony is_target cmds blank double inter tried : nat -> bool.
  Variable base : nat -> nat.
  Variable chain : nat -> list nat.
  Variable keep_going always : bool.
  Variable how : mode.
  Variable world : nat -> tick.
  Variable deps : nat -> list dep.
  Variable disk : nat -> time.
  Variable clock passes fuel : nat.
  Variable goals : list nat.
  Variable st : state.
  Hypothesis LEAVES : leaves (update_goal_chain phony is_target cmds blank double base chain keep_going always how world passes fuel goals (initial deps phony inter tried disk clock)) st.
  Lemma leaves_kept : forall P : state -> Prop, kept P (update_goal_chain phony is_target cmds blank double base chain keep_going always how world passes fuel goals (initial deps phony inter tried disk clock)) -> P st.
  Proof. intros Q K. destruct LEAVES as [E|(s & E)]; rewrite E in K; exact K. Qed.
  Theorem C51_still : how = Dry \/ how = Ask -> s_disk st = disk /\ s_jobs st = [].
  Proof.
    intros H. apply (leaves_kept (fun st => s_disk st = disk /\ s_jobs st = [])). apply chain_P; try (cbn; tauto).
    - intros f s T. destruct H; congruence.
    - intros T. destruct H; congruence.
  Qed.
  Theorem C51_runs_nothing : how = Ask \/ how = Touch -> forall f, ~ In (Start f) (s_trace st).
  Proof.
    intros H. refine (proj1 (leaves_kept (fun st => (forall f, ~ In (Start f) (s_trace st)) /\ s_jobs st = []) _)). apply chain_P.
    - cbn. tauto.
    - intros f d s [A B]. split; [|exact B]. intros g [K|K]; [discriminate|exact (A g K)].
    - intros f s [A B]. split; [|exact B]. intros g [K|K]; [discriminate|exact (A g K)].
    - cbn. tauto.
    - cbn. tauto.
    - intros f s D. destruct H; congruence.
    - destruct H; congruence.
    - tauto.
    - cbn. auto.
  Qed.
  Theorem C51_touch : how = Touch -> (forall c f D n, n <> f -> t_effect (world c) f D n = D n) -> forall f, s_disk st f = disk f \/ (cmds f = true /\ phony f = false).
  Proof.
    intros H OW. refine (proj1 (leaves_kept (fun st => (forall f, s_disk st f = disk f \/ (cmds f = true /\ phony f = false)) /\ s_jobs st = []) _)). apply chain_P.
    - cbn. tauto.
    - cbn. tauto.
    - cbn. tauto.
    - cbn. tauto.
    - intros f s _ C PH [A B]. cbn. split; [|exact B]. intros g. destruct (Nat.eq_dec g f) as [-> |NE]; [right; auto|]. destruct (t_ok _); [|apply A]. rewrite OW by exact NE. apply A.
    - intros f s D. congruence.
    - congruence.
    - tauto.
    - cbn. auto.
  Qed.
End Modes.
Print Assumptions C51_still.
Print Assumptions C51_runs_nothing.
Print Assumptions C51_touch.

(** ** Makefiles that fit *)
Ltac small := repeat match goal with
  | H : edge _ _ _ _ |- _ => destruct H as (?x & ?H & <- & <-)
  | H : In _ _ |- _ => cbn in H
  | H : _ \/ _ |- _ => destruct H
  | H : False |- _ => destruct H
  | H : ?a = _ |- _ => subst a || (subst; cbn)
  end.
(** 0 needs 1 and 2, both of which need 3; and 3 needs 4 and itself. *)
Definition diamond := [[1; 2]; [3]; [3]; [4; 3]; []].
Definition m1 := mk diamond [] [1; 2; 3] false Normal jobs.
Definition d1 n := match n with 4 => At 5 | 3 => At 2 | 1 => At 3 | _ => Absent end.
Example C27_fits : fits m1 d1 5 [0].
Proof.
  repeat split; auto.
  - intros g [<- |[]]. lia.
  - intros f d o L (x & H & <- & <-). do 5 (destruct f as [|f]; [cbn in H; small; cbn; lia|]). lia.
Qed.
Example C27_own : writes_own m1.
Proof. intros c f D n H. cbn. apply Nat.eqb_neq in H. rewrite H. reflexivity. Qed.
Example C27_runs : events (build m1 d1 0 11 12 [0]) = Some [Drop 3 3; Start 3; Finish 3 true; Start 1; Start 2; Finish 1 true; Finish 2 true].
Proof. reflexivity. Qed.
(** With intermediate files: 2 is made from 1, which is intermediate, and 1 from 0. *)
Definition m2 := mk [[]; [0]; [1]] [1] [1; 2] false Normal good.
Definition d2 (t : nat) n := match n with 0 => At 5 | 2 => At t | _ => Absent end.
Example C27_fits_inter : forall t, fits m2 (d2 t) 3 [2].
Proof.
  intros t. repeat split; auto.
  - intros g [<- |[]]. lia.
  - intros f d o L (x & H & <- & <-). do 3 (destruct f as [|f]; [cbn in H; small; cbn; lia|]). lia.
  - right. split; [intros c f D n H; cbn; apply Nat.eqb_neq in H; rewrite H; reflexivity|]. intros f H K. cbn in H. do 3 (destruct f as [|f]; [try discriminate; destruct (K eq_refl)|]). discriminate.
Qed.
Example C27_inter_newer : events (build m2 (d2 6) 0 7 8 [2]) = Some [].
Proof. reflexivity. Qed.
Example C27_inter_older : events (build m2 (d2 4) 0 7 8 [2]) = Some [Start 1; Finish 1 true; Start 2; Finish 2 true].
Proof. reflexivity. Qed.
(** The recipe of 3 fails. *)
Definition g3 := [[1; 2; 4]; [3]; [3]; []; []].
Definition m3 k := mk g3 [] [0; 1; 2; 3; 4] k Normal (failing 1).
Example C29_fits : forall k, fits (m3 k) (fun _ => Absent) 5 [0].
Proof.
  intros k. repeat split; auto.
  - intros g [<- |[]]. lia.
  - intros f d o L (x & H & <- & <-). do 5 (destruct f as [|f]; [cbn in H; small; cbn; lia|]). lia.
Qed.
Example C29_stops : events (build (m3 false) (fun _ => Absent) 0 11 12 [0]) = Some [Start 3; Finish 3 false].
Proof. reflexivity. Qed.
Example C29_goes_on : events (build (m3 true) (fun _ => Absent) 0 11 12 [0]) = Some [Start 3; Finish 3 false; Start 4; Finish 4 true].
Proof. reflexivity. Qed.
(** A second build. *)
Definition fresh (c : nat) := mktick 0 true (fun f d n => if n =? f then New else d n) 0 1.
Definition m4 := mk [[1; 2]; [3]; [3]; []] [] [0; 1; 2] false Normal fresh.
Definition d4 n := match n with 3 => At 1 | _ => Absent end.
Example C28_hypotheses : exists s st, build m4 d4 0 9 10 [0] = Ok s st /\ fine s /\ fits m4 d4 4 [0] /\ m_how m4 = Normal /\ m_always m4 = false /\ (forall f, m_double m4 f = false) /\ (forall f, m_inter m4 f = false) /\
  writes_own m4 /\ writes_new m4 /\ (forall f d o, edge (m_deps m4) f d o -> ~ reach (m_deps m4) d f) /\ (forall f, m_phony m4 f = false) /\
  (forall f, wanted m4 [0] f -> m_phony m4 f = false -> s_disk st f <> Absent) /\ rev (s_trace st) = [Start 1; Finish 1 true; Start 2; Finish 2 true; Start 0; Finish 0 true].
Proof.
  assert (ED : forall f d o, edge (m_deps m4) f d o -> f < d /\ d < 4).
  { intros f d o (x & H & <- & <-). do 4 (destruct f as [|f]; [cbn in H; small; cbn; lia|]). cbn in H. destruct f; destruct H. }
  assert (RE : forall f d, reach (m_deps m4) f d -> f <= d) by (intros f d R; induction R as [f|f g d o R IH E]; [lia|destruct (ED g d o E); lia]).
  assert (WA : forall f, wanted m4 [0] f -> f < 4). { intros f (g & [<- |[]] & R). induction R as [f|f g d o R IH E]; [lia|]. apply (ED g d o E). }
  assert (V : match build m4 d4 0 9 10 [0] with Ok s st => us_rank s < 2 /\ (s_disk st 0 <> Absent /\ s_disk st 1 <> Absent /\ s_disk st 2 <> Absent /\ s_disk st 3 <> Absent) /\
    rev (s_trace st) = [Start 1; Finish 1 true; Start 2; Finish 2 true; Start 0; Finish 0 true] | _ => False end).
  { vm_compute. repeat split; try discriminate. repeat constructor. }
  destruct (build m4 d4 0 9 10 [0]) as [s st|st|]; [|destruct V|destruct V]. destruct V as (V1 & V2 & V3).
  exists s, st. split; [reflexivity|]. split; [exact V1|]. split; [repeat split; auto; [intros g [<- |[]]; lia|intros f d o L E; apply (ED f d o E)]|].
  split; [reflexivity|]. split; [reflexivity|]. split; [reflexivity|]. split; [reflexivity|].
  split; [intros c f D n H; cbn; apply Nat.eqb_neq in H; rewrite H; reflexivity|].
  split; [intros c f D n _; cbn; rewrite Nat.eqb_refl; intros L; inversion L|].
  split; [intros f d o E K; apply RE in K; destruct (ED f d o E); lia|]. split; [reflexivity|]. split; [|exact V3].
  intros f W _. specialize (WA f W). do 4 (destruct f as [|f]; [tauto|]). lia.
Qed.
(** -n prints, -q says that something is to be done, -t touches. *)
Definition m5 how := mk g3 [] [0; 1; 2; 3; 4] true how good.
Example C51_dry : events (build (m5 Dry) (fun _ => Absent) 0 11 12 [0]) = Some [Start 3; Finish 3 true; Start 1; Finish 1 true; Start 2; Finish 2 true; Start 4; Finish 4 true; Start 0; Finish 0 true].
Proof. reflexivity. Qed.
Example C51_question : match build (m5 Ask) (fun _ => Absent) 0 11 12 [0] with Ok s st => s = Question /\ s_trace st = [] | _ => False end.
Proof. vm_compute. auto. Qed.
Example C51_fits : forall how d, fits (m5 how) d 5 [0].
Proof.
  intros how d. repeat split; auto.
  - intros g [<- |[]]. lia.
  - intros f n o L (x & H & <- & <-). do 5 (destruct f as [|f]; [cbn in H; small; cbn; lia|]). lia.
Qed.
Example C51_nothing_to_do : match build (m5 Ask) (fun _ => At 1) 0 11 12 [0] with Ok s st => fine s /\ s_trace st = [] | _ => False end.
Proof. vm_compute. auto. Qed.
Example C51_some : events (build (m5 Dry) (fun n => if n =? 1 then At 2 else At 1) 0 11 12 [0]) = Some [Start 0; Finish 0 true].
Proof. reflexivity. Qed.
Example C51_touches : match build (m5 Touch) (fun _ => Absent) 0 11 12 [0] with Ok s st => s_trace st = [] /\ map (s_disk st) [0; 1; 2; 3; 4; 5] = [At 104; At 101; At 102; At 100; At 103; Absent] | _ => False end.
Proof. vm_compute. auto. Qed.

(** ** Where the limits are needed *)
(** 1. A target with two double-colon rules ([3] and [4] stand for them): with -k, the second fails,
    and a target that depends on it is made all the same, on what the first has left. *)
Definition base2 (n : nat) := if n =? 4 then 3 else n.
Definition chain2 (n : nat) := if n =? 3 then [3; 4] else [n].
Definition double2 (n : nat) := (n =? 3) || (n =? 4).
Definition g_double := [[1; 2]; [3]; [3]; []; []].
Definition run_double keep g w := update_goal_chain (fun _ => false) (fun _ => true) (fun n => negb (n =? 0)) (fun _ => false) double2 base2 chain2 keep false Normal w 20 20 [0]
  (initial (fun n => map plain (nth n g [])) (fun _ => false) (fun _ => false) (fun _ => false) (fun _ => Absent) 0).
Lemma leaves_events : forall r tr, events r = Some tr -> exists st, leaves r st /\ s_trace st = rev tr.
Proof.
  intros [s st|st|] tr H; try discriminate; injection H as <-; exists st; rewrite rev_involutive; (split; [|reflexivity]); [right; exists s; reflexivity|left; reflexivity].
Qed.
Definition w_double (t : nat) (c : nat) := mktick 0 (negb (c =? t)) (fun f d n => if n =? base2 f then At (100 + c) else d n) 0 1.
Theorem C29_double_colon_refuted : exists g w st, (forall f, edge (fun n => map plain (nth n g [])) 2 f false <-> f = 3) /\ leaves (run_double true g w) st /\ exists t2 t1, s_trace st = t2 ++ Start 2 :: t1 /\ In (Finish 4 false) t1 /\ base2 4 = 3.
Proof.
  exists g_double, (w_double 3). destruct (leaves_events (run_double true g_double (w_double 3)) [Start 3; Finish 3 true; Start 4; Finish 4 false; Start 2; Finish 2 true] eq_refl) as (st & L & T).
  exists st. split; [intros f; split; [intros (x & [<- |[]] & <- & _); reflexivity|intros ->; exists (plain 3); cbn; auto]|]. split; [exact L|].
  exists [Finish 2 true], [Finish 4 false; Start 4; Finish 3 true; Start 3]. rewrite T. cbn. auto.
Qed.
(** 2. With several jobs a target may be started before the second rule of its prerequisite: make
    has waited for the first while it started something else. *)
Definition w_double2 (c : nat) := mktick 0 true (fun f d n => if n =? base2 f then At 100 else d n) (if c =? 1 then 1 else 0) 0.
Theorem C27_double_colon_order_refuted : exists g w st, (forall f, edge (fun n => map plain (nth n g [])) 2 f false <-> f = 3) /\ leaves (run_double false g w) st /\ exists t2 t1, s_trace st = t2 ++ Start 2 :: t1 /\ In (Start 4) t2 /\ base2 4 = 3.
Proof.
  exists [[1; 5; 2]; [3]; [3]; []; []; []], w_double2.
  destruct (leaves_events (run_double false [[1; 5; 2]; [3]; [3]; []; []; []] w_double2)
    [Start 3; Finish 3 true; Start 5; Start 2; Finish 5 true; Start 4; Finish 2 true; Finish 4 true; Start 1; Finish 1 true] eq_refl) as (st & L & T).
  exists st. split; [intros f; split; [intros (x & [<- |[]] & <- & _); reflexivity|intros ->; exists (plain 3); cbn; auto]|]. split; [exact L|].
  exists [Finish 1 true; Start 1; Finish 4 true; Finish 2 true; Start 4; Finish 5 true], [Start 5; Finish 3 true; Start 3]. rewrite T. cbn. auto 10.
Qed.
(** 3. An intermediate file that exists, has no recipe and has been searched for an implicit rule (3)
    keeps its mark; with several jobs a recipe is then started while it is running (1). *)
Definition g_twice := [[6; 5; 2]; [3]; [1]; [4]; []; [4]; [1]].
Definition m_twice := mkmake (fun n => map plain (nth n g_twice [])) (fun _ => false) (fun _ => true) (fun n => negb ((n =? 0) || (n =? 3))) (fun _ => false) (fun _ => false)
  (fun n => (n =? 1) || (n =? 3) || (n =? 4)) (fun _ => false) false false Normal (fun c => mktick (if c =? 2 then 1 else 0) true (fun f d n => if n =? f then At 9 else d n) 0 0).
Definition d_twice n := match n with 3 => At 1 | 2 => At 5 | _ => Absent end.
Theorem C27_twice_refuted : exists m disk st N, (forall f d o, f < N -> edge (m_deps m) f d o -> d < N) /\ 0 < N /\ m_how m = Normal /\ writes_own m /\ leaves (build m disk 0 20 30 [0]) st /\ ~ NoDup (starts (s_trace st)).
Proof.
  pose (r := build m_twice d_twice 0 20 30 [0]).
  assert (V : match r with Ok _ st => existsb (fun f => 1 <? count_occ Nat.eq_dec (starts (s_trace st)) f) [1] = true | _ => False end) by (vm_compute; reflexivity).
  destruct r as [s st|st|] eqn:R; [|destruct V|destruct V]. exists m_twice, d_twice, st, 7.
  split; [intros f d o L (x & H & <- & <-); do 7 (destruct f as [|f]; [cbn in H; small; cbn; lia|]); lia|]. split; [lia|]. split; [reflexivity|].
  split; [intros c f D n H; cbn; apply Nat.eqb_neq in H; rewrite H; reflexivity|]. split; [right; exists s; exact R|].
  cbn [existsb] in V. rewrite orb_false_r in V. apply Nat.ltb_lt in V. intros ND. rewrite (NoDup_count_occ Nat.eq_dec) in ND. specialize (ND 1). lia.
Qed.
(** 4. -q without -k: a circular intermediate file whose other prerequisite must be made.  Make calls
    itself until its stack is used up. *)
Theorem C27_question_refuted : exists m disk, (forall f d o, f < 3 -> edge (m_deps m) f d o -> d < 3) /\ m_how m = Ask /\ writes_own m /\ (forall f, disk f = Absent) /\ forall passes fuel, build m disk 0 passes fuel [1] = Out.
Proof.
  exists m_loop, absent. split; [intros f d o L (x & H & <- & <-); do 3 (destruct f as [|f]; [cbn in H; small; cbn; lia|]); lia|]. split; [reflexivity|].
  split; [intros c f D n H; cbn; apply Nat.eqb_neq in H; rewrite H; reflexivity|]. split; [reflexivity|]. exact question.
Qed.
(** 5. A second build with an intermediate file that is kept (.SECONDARY): 1 is made for 4 only, but 2
    depends on it as well and is then older. *)
Definition m_sec := mk [[2; 4]; [3]; [1]; []; [1]] [1] [1; 2; 4] false Normal fresh.
Definition d_sec n := match n with 2 => At 9 | 3 => At 1 | _ => Absent end.
Theorem C28_secondary_refuted : exists m disk s st st', fits m disk 5 [0] /\ writes_own m /\ writes_new m /\ build m disk 0 11 12 [0] = Ok s st /\ fine s /\ leaves (build m (s_disk st) 0 11 12 [0]) st' /\ In (Start 2) (s_trace st').
Proof.
  assert (V : match build m_sec d_sec 0 11 12 [0] with Ok s st => us_rank s < 2 /\ events (build m_sec (s_disk st) 0 11 12 [0]) = Some [Start 2; Finish 2 true] | _ => False end) by (vm_compute; split; [repeat constructor|reflexivity]).
  destruct (build m_sec d_sec 0 11 12 [0]) as [s st|st|] eqn:R; [|destruct V|destruct V]. destruct V as [V1 V2]. destruct (leaves_events _ _ V2) as (st' & L & T).
  exists m_sec, d_sec, s, st, st'. split; [|split; [|split; [|split; [exact R|split; [exact V1|split; [exact L|]]]]]].
  - repeat split; auto.
    + intros g [<- |[]]. lia.
    + intros f d o L' (x & H & <- & <-). do 5 (destruct f as [|f]; [cbn in H; small; cbn; lia|]). lia.
    + right. split; [intros c f D n H; cbn; apply Nat.eqb_neq in H; rewrite H; reflexivity|]. intros f H K. cbn in H. destruct f as [|f]; [discriminate H|]. destruct f as [|f]; [destruct (K eq_refl)|]. destruct f; discriminate H.
  - intros c f D n H. cbn. apply Nat.eqb_neq in H. rewrite H. reflexivity.
  - intros c f D n _. cbn. rewrite Nat.eqb_refl. intros L0. inversion L0.
  - rewrite T. cbn. auto.
Qed.
Print Assumptions C29_double_colon_refuted.
Print Assumptions C27_double_colon_order_refuted.
Print Assumptions C27_twice_refuted.
Print Assumptions C27_question_refuted.
Print Assumptions C28_secondary_refuted.
