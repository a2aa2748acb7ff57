(** What is deleted at the end of a build (C33).  [st] is the state when all children have ended,
    [s_disk st] the disk before anything is deleted, [r] what make says and the disk afterwards. *)
From Verif Require Import Base M_Build S_Build M_Clean S_Clean P_Clean P_Keep P_Sweep S_BuildExamples.

Section Any.
  Variable m : make.
  Variable k : marks.
  Variable disk : nat -> time.
  Variable clock passes fuel : nat.
  Variable goals : list nat.
  Hypothesis MARKS : forall f, m_inter m f = marked k f.
  Variable r : list nat * (nat -> time).
  Variable st : state.
  Hypothesis RUN : whole m k disk clock passes fuel goals = Ok r st.
  Lemma the_prey : forall f, snd r f = s_disk st f \/ (deleted (s_disk st) r f /\ m_how m = Normal /\ all_secondary k = false /\ In f (k_table k) /\ prey k (s_files st) f).
  Proof.
    intros f. pose proof (removed false (m_how m) k st f) as K. rewrite <- (whole_removes _ _ _ _ _ _ _ _ _ RUN) in K.
    destruct K as [K|(A & B & C & D & E & F)]; [left; exact K|right]. split; [split; assumption|auto].
  Qed.
  Lemma the_deleted : forall f, deleted (s_disk st) r f -> m_how m = Normal /\ all_secondary k = false /\ In f (k_table k) /\ prey k (s_files st) f.
  Proof. intros f [A B]. destruct (the_prey f) as [K|[_ K]]; [congruence|exact K]. Qed.

  (** Only what the makefile or an implicit rule has made intermediate is deleted, and nothing that is
      precious, secondary, or given on the command line; nothing else on the disk is changed. *)
  Theorem C33_only : only_deletes (s_disk st) r /\ forall f, deleted (s_disk st) r f -> is_intermediate k f /\ ~ to_keep k f.
  Proof.
    split; [intros f; destruct (the_prey f) as [K|[K _]]; auto|]. intros f D. destruct (the_deleted f D) as (_ & A & _ & PR). split; [|exact (prey_keep _ _ _ PR A)].
    apply (marked_is _ _ A). rewrite <- MARKS. destruct (m_inter m f) eqn:I; [reflexivity|]. destruct PR as [E _]. unfold eligible in E. rewrite (whole_unmarked _ _ _ _ _ _ _ _ _ _ RUN I) in E. discriminate E.
  Qed.
  (** What was there before the build is not deleted, if it has a recipe, no implicit rule was tried
      for it, it is not phony, and no other recipe removes it. *)
  Theorem C33_old : forall f, disk f <> Absent -> m_phony m f = false -> m_cmds m f = true -> m_tried m f = false -> spared m f -> ~ deleted (s_disk st) r f.
  Proof. intros f NA PH CM TR SP D. destruct (the_deleted f D) as (_ & _ & _ & PR). exact (whole_old _ _ _ _ _ _ _ _ _ _ RUN NA PH CM TR SP PR). Qed.
  (** So what is deleted exists only because of this build: its recipe has been run. *)
  Theorem C33_made : forall f, deleted (s_disk st) r f -> private m f -> (disk f <> Absent -> m_phony m f = false /\ m_cmds m f = true /\ m_tried m f = false) ->
    disk f = Absent /\ exists ok, In (Finish f ok) (s_trace st).
  Proof.
    intros f D PV OK. destruct (the_deleted f D) as (HN & _). assert (A : disk f = Absent).
    { destruct (disk f) as [|n|] eqn:E; [reflexivity| |]; exfalso; destruct (OK ltac:(discriminate)) as (X & Y & Z); apply (C33_old f); try assumption; try (rewrite E; discriminate); intros c g D0 N NA; rewrite (PV c g D0 N); exact NA. }
    split; [exact A|]. destruct (whole_made _ _ _ _ _ _ _ f _ _ PV ltac:(rewrite HN; discriminate) RUN) as [K|K]; [exact K|]. destruct D as [D _]. congruence.
  Qed.
  (** Under -n, -q and -t, and if .SECONDARY has no prerequisites, nothing is deleted. *)
  Theorem C33_modes : m_how m <> Normal \/ In [] (k_secondary k) -> snd r = s_disk st /\ (m_how m <> Dry -> fst r = []).
  Proof.
    intros H. rewrite (whole_removes _ _ _ _ _ _ _ _ _ RUN). unfold remove_intermediates. destruct (m_how m) eqn:HW; try (split; reflexivity).
    - destruct H as [H|H]; [congruence|]. apply all_in in H. rewrite H. split; reflexivity.
    - split; [|congruence]. destruct (_ || _); [reflexivity|]. apply sweep_dry. reflexivity.
  Qed.
  (** Make names what it deletes: the files are in the table once, and all can be removed. *)
  Theorem C33_said : m_how m = Normal -> NoDup (k_table k) -> (forall f, k_locked k f = false) -> forall f, In f (fst r) <-> deleted (s_disk st) r f /\ k_dontcare k f = false.
  Proof.
    intros HN ND LO f. pose proof (the_deleted f) as TD. rewrite (whole_removes _ _ _ _ _ _ _ _ _ RUN) in *. unfold remove_intermediates in *. rewrite HN in *.
    destruct (all_secondary k) eqn:A; [split; [intros []|intros [D _]; destruct (TD D) as (_ & Z & _); discriminate Z]|].
    rewrite (sweep_said Normal k (s_files st) (k_table k) (s_disk st) ltac:(discriminate) ND f). split.
    - intros (I & PR & NA & DC). split; [|exact DC]. split; [exact NA|]. apply sweep_all; auto. discriminate.
    - intros [D DC]. destruct (TD D) as (_ & _ & I & PR). split; [exact I|]. split; [exact PR|]. split; [exact (proj1 D)|exact DC].
  Qed.
  (** And nothing is left behind: an intermediate file that was missing, whose recipe has been run, and
      that is not to be kept, is gone in the end. *)
  Theorem C33_all : forall N s st1, fits m disk N goals -> 2 * N + 2 <= fuel -> 2 * N + 1 <= passes -> m_how m = Normal -> writes_own m -> build m disk clock passes fuel goals = Ok s st1 ->
    forall f ok, is_intermediate k f -> ~ to_keep k f -> disk f = Absent -> In (Finish f ok) (s_trace st) -> In f (k_table k) -> k_locked k f = false -> snd r f = Absent.
  Proof.
    intros N s st1 FITS F1 F2 HN OW B f ok II NK DA FN IT LO.
    destruct (whole_prey m k disk N clock passes fuel goals r st s st1 FITS F1 F2 HN OW B RUN f ok ltac:(rewrite MARKS; apply is_marked; exact II) DA FN) as [X Y].
    rewrite (whole_removes _ _ _ _ _ _ _ _ _ RUN). unfold remove_intermediates. rewrite HN. destruct (all_secondary k) eqn:A; [exfalso; apply NK; apply keep_all, all_in; exact A|].
    apply sweep_all; auto; [discriminate|]. apply keep_prey; assumption.
  Qed.
End Any.
(** Nothing is deleted before all children have ended. *)
Theorem C33_waits : forall m k disk clock passes fuel goals r st, whole m k disk clock passes fuel goals = Ok r st -> s_jobs st = [].
Proof.
  intros m k disk clock passes fuel goals r st E. unfold whole in E. destruct (build m disk clock passes fuel goals) as [s st1|st1|]; try discriminate E; unfold die in E.
  all: match type of E with bind ?x _ = _ => destruct x as [u st2|st2|] eqn:R; cbn [bind] in E; try discriminate E end; injection E as _ <-; exact (reaps_empty _ _ _ _ _ _ (le_n _) R).
Qed.
(** However the build ends, the intermediate files are then removed; but if a child were still running
    when all is well, and failed, they would not. *)
Theorem C33_reached : forall m k disk clock passes fuel goals,
  match build m disk clock passes fuel goals with
  | Ok s st => m_keep m = true \/ ~ fine s \/ s_jobs st = [] -> exists r st', whole m k disk clock passes fuel goals = Ok r st'
  | Die _ => exists r st', whole m k disk clock passes fuel goals = Ok r st'
  | Out => True
  end.
Proof.
  intros m k disk clock passes fuel goals. unfold whole, die. destruct (build m disk clock passes fuel goals) as [s st|st|]; [| |exact Logic.I].
  - intros H. assert (K : m_keep m || (1 <? us_rank s) = true \/ s_jobs st = []).
    { destruct H as [H|[H|H]]; [left; rewrite H; reflexivity|left; unfold fine in H; apply orb_true_iff; right; apply Nat.ltb_lt; lia|right; exact H]. }
    destruct K as [K|K]; [rewrite K; destruct (reaps_ok m (length (s_jobs st)) st) as [st' R]; rewrite R; cbn [bind]; eauto|]. rewrite (reaps_nil m _ _ st K). cbn [bind]. eauto.
  - rewrite orb_true_r. destruct (reaps_ok m (length (s_jobs st)) st) as [st' R]. rewrite R. cbn [bind]. eauto.
Qed.
Print Assumptions C33_waits.
Print Assumptions C33_reached.
(** When a signal ends make, -n deletes nothing and says nothing. *)
Theorem C33_signal : forall k st, remove_intermediates true Dry k st = ([], s_disk st).
Proof. intros k st. unfold remove_intermediates. rewrite orb_true_r. reflexivity. Qed.
Print Assumptions C33_only.
Print Assumptions C33_old.
Print Assumptions C33_made.
Print Assumptions C33_modes.
Print Assumptions C33_said.
Print Assumptions C33_all.
Print Assumptions C33_signal.

(** 0 is made from 1, 1 from 2 and 3; 1, 2 and 3 are intermediate; 3 is there, 2 is precious. *)
Definition kk inter prec given table := mkmarks prec inter [] (fun _ => false) (fun _ => false) (fun _ => false) given (fun _ => false) table (fun _ => false).
Definition m1 := mk [[1]; [2; 3]; []; []] [1; 2; 3] [0; 1; 2; 3] false Normal good.
Definition k1 := kk [1; 2; 3] [2] [0] [3; 2; 1; 0].
Definition there (l : list nat) (n : nat) : time := if existsb (Nat.eqb n) l then At 5 else Absent.
Definition shown (r : res (list nat * (nat -> time))) (l : list nat) : option (list nat * list bool * list bool) :=
  match r with Ok a st => Some (fst a, map (fun f => negb (time_eqb (s_disk st f) Absent)) l, map (fun f => negb (time_eqb (snd a f) Absent)) l) | _ => None end.
Example C33_example : shown (whole m1 k1 (there [3]) 0 20 20 [0]) [0; 1; 2; 3] = Some ([1], [true; true; true; true], [true; false; true; true]).
Proof. vm_compute. reflexivity. Qed.
Example C33_example_meets : (forall f, m_inter m1 f = marked k1 f) /\ private m1 1 /\ ~ to_keep k1 1 /\ to_keep k1 2 /\ is_intermediate k1 1 /\ fits m1 (there [3]) 4 [0] /\ writes_own m1 /\
  m_phony m1 3 = false /\ m_cmds m1 3 = true /\ m_tried m1 3 = false /\ spared m1 3 /\ there [3] 3 <> Absent.
Proof.
  assert (OW : writes_own m1). { intros c f D n N. cbn. apply Nat.eqb_neq in N. rewrite N. reflexivity. }
  split. { intros f. unfold marked, m1, k1, mk, kk. cbn. rewrite !orb_false_r. reflexivity. }
  split. { intros c g D N. apply OW. intros X. apply N. symmetry. exact X. }
  split. { intros [I D|I D|l I J|I|I J|I]; cbn in I; try discriminate I; try (destruct I as [I|[]]; discriminate I); destruct I. }
  split. { apply keep_precious; [left; reflexivity|reflexivity]. }
  split. { left. left. reflexivity. }
  split. { split; [intros g [<-|[]]; lia|]. split; [|split; [right; left; reflexivity|right; split; [exact OW|]]].
    - intros f d o L (x & I & E & _). do 4 (destruct f as [|f]; [cbn in I; repeat (destruct I as [I|I]; [subst x; cbn in E; subst d; lia|]); destruct I|]). lia.
    - intros f I D. cbn. split; [reflexivity|]. cbn in I. do 4 (destruct f as [|f]; [try discriminate I; reflexivity|]). discriminate I. }
  split; [exact OW|]. split; [reflexivity|]. split; [reflexivity|]. split; [reflexivity|]. split; [|discriminate].
  intros c g D N NA. replace (t_effect (m_world m1 c) g D 3) with (D 3); [exact NA|]. symmetry. apply OW. intros X. apply N. symmetry. exact X.
Qed.

(** [outcome Q x]: the build ends, and [Q] holds of what it leaves. *)
Definition outcome (Q : list nat * (nat -> time) -> state -> Prop) (x : res (list nat * (nat -> time))) : Prop := match x with Ok r st => Q r st | _ => False end.
Lemma outcome_ex : forall Q x, outcome Q x -> exists r st, x = Ok r st /\ Q r st.
Proof. intros Q [r st|st|] H; try destruct H. exists r, st. auto. Qed.

(** A source file in .INTERMEDIATE, which has no rule, is deleted though make did not make it, if it is
    a prerequisite of another intermediate file: the search for an implicit rule for it comes before
    the look at the disk, and then the mark stays (src/remake.c:1072-1094, 1489-1496). *)
Definition m2 := mkmake (fun n => map plain (nth n [[1]; [2]; []] [])) (fun _ => false) (fun n => n <? 2) (fun n => n <? 2) (fun _ => false) (fun _ => false) (fun n => (n =? 1) || (n =? 2)) (fun _ => false) false false Normal good.
Definition k2 := kk [1; 2] [] [0] [0; 1; 2].
Theorem C33_source_refuted : exists m k disk clock passes fuel goals f r st, (forall n, m_inter m n = marked k n) /\ writes_own m /\ m_phony m f = false /\ m_tried m f = false /\
  whole m k disk clock passes fuel goals = Ok r st /\ disk f <> Absent /\ (forall ok, ~ In (Finish f ok) (s_trace st)) /\ deleted (s_disk st) r f.
Proof.
  exists m2, k2, (there [2]), 0, 20, 20, [0], 2. destruct (outcome_ex (fun r st => (forall ok, ~ In (Finish 2 ok) (s_trace st)) /\ deleted (s_disk st) r 2) (whole m2 k2 (there [2]) 0 20 20 [0])) as (r & st & E & A & B).
  { vm_compute. split; [intros ok K; repeat (destruct K as [K|K]; [discriminate K|]); exact K|split; [discriminate|reflexivity]]. }
  exists r, st. split. { intros n. do 3 (destruct n as [|n]; [reflexivity|]). reflexivity. }
  split. { intros c f D n N. cbn. apply Nat.eqb_neq in N. rewrite N. reflexivity. }
  split; [reflexivity|]. split; [reflexivity|]. split; [exact E|]. split; [discriminate|]. split; assumption.
Qed.
(** So is a file of the name of a phony intermediate target: make does not look at the disk. *)
Definition m3 := mkmake (fun n => map plain (nth n [[1]; []] [])) (fun n => n =? 1) (fun _ => true) (fun _ => true) (fun n => n =? 1) (fun _ => false) (fun n => n =? 1) (fun _ => false) false false Normal good.
Definition k3 := kk [1] [] [0] [0; 1].
Theorem C33_phony_refuted : exists m k disk clock passes fuel goals f r st, (forall n, m_inter m n = marked k n) /\ writes_own m /\ m_cmds m f = true /\ m_tried m f = false /\
  whole m k disk clock passes fuel goals = Ok r st /\ disk f <> Absent /\ (forall ok, ~ In (Finish f ok) (s_trace st)) /\ deleted (s_disk st) r f.
Proof.
  exists m3, k3, (there [1]), 0, 20, 20, [0], 1. destruct (outcome_ex (fun r st => (forall ok, ~ In (Finish 1 ok) (s_trace st)) /\ deleted (s_disk st) r 1) (whole m3 k3 (there [1]) 0 20 20 [0])) as (r & st & E & A & B).
  { vm_compute. split; [intros ok K; repeat (destruct K as [K|K]; [discriminate K|]); exact K|split; [discriminate|reflexivity]]. }
  exists r, st. split. { intros n. do 3 (destruct n as [|n]; [reflexivity|]). reflexivity. }
  split. { intros c f D n N. cbn. apply Nat.eqb_neq in N. rewrite N. reflexivity. }
  split; [reflexivity|]. split; [reflexivity|]. split; [exact E|]. split; [discriminate|]. split; assumption.
Qed.
(** A goal that was not given on the command line (the first target of the makefile) is deleted as soon
    as it has been made, if it is intermediate. *)
Definition m4 := mk [[]] [0] [0] false Normal good.
Definition k4 := kk [0] [] [] [0].
Theorem C33_default_goal_refuted : exists m k disk clock passes fuel goals f r st, (forall n, m_inter m n = marked k n) /\ In f goals /\ whole m k disk clock passes fuel goals = Ok r st /\ deleted (s_disk st) r f.
Proof.
  exists m4, k4, (there []), 0, 20, 20, [0], 0. destruct (outcome_ex (fun r st => deleted (s_disk st) r 0) (whole m4 k4 (there []) 0 20 20 [0])) as (r & st & E & A); [vm_compute; split; [discriminate|reflexivity]|].
  exists r, st. split. { intros n. do 3 (destruct n as [|n]; [reflexivity|]). reflexivity. } split; [left; reflexivity|]. split; assumption.
Qed.
(** A precious file is deleted if make dies while it remakes the makefiles for which it is needed. *)
Definition k5 := mkmarks [1] [1] [] (fun _ => false) (fun _ => false) (fun _ => false) [0] (fun _ => true) [0; 1] (fun _ => false).
Theorem C33_precious_refuted : exists m k disk clock passes fuel goals f r st, (forall n, m_inter m n = marked k n) /\ In f (k_precious k) /\ whole m k disk clock passes fuel goals = Ok r st /\ deleted (s_disk st) r f.
Proof.
  exists (mk [[1]; []] [1] [0; 1] false Normal good), k5, (there []), 0, 20, 20, [0], 1.
  destruct (outcome_ex (fun r st => deleted (s_disk st) r 1) (whole (mk [[1]; []] [1] [0; 1] false Normal good) k5 (there []) 0 20 20 [0])) as (r & st & E & A); [vm_compute; split; [discriminate|reflexivity]|].
  exists r, st. split. { intros n. do 3 (destruct n as [|n]; [reflexivity|]). reflexivity. } split; [left; reflexivity|]. split; assumption.
Qed.
Print Assumptions C33_source_refuted.
Print Assumptions C33_phony_refuted.
Print Assumptions C33_default_goal_refuted.
Print Assumptions C33_precious_refuted.
