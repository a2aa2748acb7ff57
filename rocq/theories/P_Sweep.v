(** What remove_intermediates removes, and what has been made. *)
From Verif Require Import Base M_Build S_Build M_Clean S_Clean P_Clean P_Notice P_Build P_Made P_Keep.

Lemma mem_in : forall f l, mem f l = true <-> In f l.
Proof.
  intros f l. unfold mem. rewrite existsb_exists. split; [intros (x & I & E); apply Nat.eqb_eq in E; congruence|intros I; exists f; split; [exact I|apply Nat.eqb_refl]].
Qed.
Lemma mem_any : forall f l, existsb (mem f) l = true <-> exists x, In x l /\ In f x.
Proof.
  intros f l. rewrite existsb_exists. split; intros (x & I & E); exists x; split; auto; apply mem_in; exact E.
Qed.
Lemma all_in : forall k, all_secondary k = true <-> In [] (k_secondary k).
Proof.
  intros k. unfold all_secondary. rewrite existsb_exists. split; [intros ([|a x] & I & E); [exact I|discriminate]|intros I; exists []; auto].
Qed.
Lemma absent_eqb : forall t, time_eqb t Absent = true <-> t = Absent.
Proof. intros [|n|]; cbn; split; congruence. Qed.

Section Sweep.
  Variable how : mode.
  Variable k : marks.
  Variable files : nat -> file.
  (** What the sweep takes. *)
  Definition prey (f : nat) : Prop := eligible k (files f) f = true /\ f_status (files f) <> NoAttempt.
  Lemma sweep_not : forall f l D, ~ prey f -> sweep how k files (f :: l) D = sweep how k files l D.
  Proof.
    intros f l D N. cbn [sweep]. unfold prey in N. destruct (eligible k (files f) f); [|reflexivity]. destruct (f_status (files f)); try reflexivity; exfalso; apply N; split; congruence.
  Qed.
  Lemma sweep_prey : forall f l D, prey f -> how <> Dry -> sweep how k files (f :: l) D =
    if time_eqb (D f) Absent then sweep how k files l D
    else let r := sweep how k files l (if k_locked k f then D else fun n => if n =? f then Absent else D n) in (if k_dontcare k f then fst r else f :: fst r, snd r).
  Proof.
    intros f l D [E N] H. cbn [sweep]. rewrite E. replace (match how with Dry => true | _ => false end) with false by (destruct how; congruence). cbn [negb andb orb].
    destruct (f_status (files f)); try congruence.
    all: destruct (time_eqb (D f) Absent); [reflexivity|]; cbv zeta; destruct (sweep how k files l _) as [a b]; reflexivity.
  Qed.
  Lemma prey_dec : forall f, prey f \/ ~ prey f.
  Proof. intros f. unfold prey. destruct (eligible k (files f) f); [|right; intros [X _]; discriminate]. destruct (f_status (files f)); [left|right|left|left]; try (split; congruence). intros [_ X]. congruence. Qed.
  Lemma sweep_dry : forall l D, how = Dry -> snd (sweep how k files l D) = D.
  Proof.
    intros l D H. subst how. induction l as [|f l IH]; cbn [sweep]; [reflexivity|]. destruct (eligible _ _ _); [|exact IH]. destruct (f_status _); try exact IH; cbn [negb andb orb]; destruct (sweep Dry k files l D); exact IH.
  Qed.
  Lemma sweep_disk : forall l D f, snd (sweep how k files l D) f = D f \/ (D f <> Absent /\ snd (sweep how k files l D) f = Absent /\ In f l /\ prey f /\ how <> Dry).
  Proof.
    intros l. induction l as [|g l IH]; intros D f; [left; reflexivity|].
    assert (DEC : how = Dry \/ how <> Dry) by (clear; destruct how; [right; discriminate|left; reflexivity|right; discriminate|right; discriminate]). destruct DEC as [HD|HD].
    { left. rewrite sweep_dry by exact HD. reflexivity. }
    destruct (prey_dec g) as [PG|PG].
    - rewrite (sweep_prey g l D PG HD). destruct (time_eqb (D g) Absent) eqn:A.
      + destruct (IH D f) as [Z|(Z1 & Z2 & Z3 & Z4 & Z5)]; [left; exact Z|right; repeat split; auto; [right; exact Z3|apply Z4|apply Z4]].
      + cbv zeta. cbn [snd]. set (D' := if k_locked k g then D else _). destruct (Nat.eq_dec f g) as [->|NE].
        * assert (NA : D g <> Absent) by (intros X; rewrite (proj2 (absent_eqb _) X) in A; discriminate).
          assert (DD : D' g = D g \/ D' g = Absent) by (subst D'; destruct (k_locked k g); [left; reflexivity|right; rewrite Nat.eqb_refl; reflexivity]).
          destruct (IH D' g) as [Z|(Z1 & Z2 & Z3 & Z4 & Z5)].
          -- rewrite Z. destruct DD as [DD|DD]; [left; exact DD|right; rewrite DD; repeat split; auto; [left; reflexivity|apply PG|apply PG]].
          -- right. repeat split; auto; [left; reflexivity|apply PG|apply PG].
        * assert (DD : D' f = D f) by (subst D'; destruct (k_locked k g); [reflexivity|]; destruct (f =? g) eqn:E; [apply Nat.eqb_eq in E; contradiction|reflexivity]).
          destruct (IH D' f) as [Z|(Z1 & Z2 & Z3 & Z4 & Z5)]; [left; congruence|right; rewrite DD in Z1; repeat split; auto; [right; exact Z3|apply Z4|apply Z4]].
    - rewrite (sweep_not g l D PG). destruct (IH D f) as [Z|(Z1 & Z2 & Z3 & Z4 & Z5)]; [left; exact Z|right; repeat split; auto; [right; exact Z3|apply Z4|apply Z4]].
  Qed.
  Lemma sweep_all : forall l D f, how <> Dry -> In f l -> prey f -> k_locked k f = false -> snd (sweep how k files l D) f = Absent.
  Proof.
    intros l. induction l as [|g l IH]; intros D f HD IN PF LF; [destruct IN|].
    assert (ST : forall l D, D f = Absent -> snd (sweep how k files l D) f = Absent). { intros l' D' Z. destruct (sweep_disk l' D' f) as [Y|(Y & _)]; congruence. }
    destruct (prey_dec g) as [PG|PG].
    - rewrite (sweep_prey g l D PG HD). destruct (time_eqb (D g) Absent) eqn:A.
      + destruct IN as [->|IN]; [apply ST; apply absent_eqb; exact A|apply IH; assumption].
      + cbv zeta. cbn [snd]. destruct IN as [->|IN]; [|apply IH; assumption]. apply ST. rewrite LF, Nat.eqb_refl. reflexivity.
    - rewrite (sweep_not g l D PG). destruct IN as [->|IN]; [contradiction|apply IH; assumption].
  Qed.
  (** What make says it removes. *)
  Lemma sweep_said : forall l D, how <> Dry -> NoDup l -> forall f, In f (fst (sweep how k files l D)) <-> In f l /\ prey f /\ D f <> Absent /\ k_dontcare k f = false.
  Proof.
    intros l. induction l as [|g l IH]; intros D HD ND f; [split; [intros []|intros [[] _]]|]. inversion ND as [|x y NI ND']; subst.
    destruct (prey_dec g) as [PG|PG].
    - rewrite (sweep_prey g l D PG HD). destruct (time_eqb (D g) Absent) eqn:A.
      + apply absent_eqb in A. rewrite (IH D HD ND' f). cbn [In]. split; [intros (X & Y); split; [right; exact X|exact Y]|]. intros ([->|X] & Y & Z & W); [congruence|auto].
      + assert (NA : D g <> Absent) by (intros X; rewrite (proj2 (absent_eqb _) X) in A; discriminate). cbv zeta. cbn [fst]. set (D' := if k_locked k g then D else _).
        assert (DD : forall n, n <> g -> D' n = D n) by (intros n N; subst D'; destruct (k_locked k g); [reflexivity|]; apply Nat.eqb_neq in N; rewrite N; reflexivity).
        assert (R : In f (fst (sweep how k files l D')) <-> In f l /\ prey f /\ D f <> Absent /\ k_dontcare k f = false).
        { rewrite (IH D' HD ND' f). split; intros (X & Y); (split; [exact X|]); (assert (N : f <> g) by (intros ->; contradiction)); rewrite (DD f N) in *; exact Y. }
        destruct (k_dontcare k g) eqn:DC; [rewrite R|cbn [In]; rewrite R]; (split; [|]).
        * intros (X & Y). split; [right; exact X|exact Y].
        * intros ([->|X] & Y & Z & W); [congruence|auto].
        * intros [<-|(X & Y)]; [split; [left; reflexivity|auto]|split; [right; exact X|exact Y]].
        * intros ([->|X] & Y); [left; reflexivity|right; auto].
    - rewrite (sweep_not g l D PG), (IH D HD ND' f). cbn [In]. split; [intros (X & Y); split; [right; exact X|exact Y]|]. intros ([->|X] & Y & Z); [contradiction|auto].
  Qed.
End Sweep.

Lemma removed : forall sig how k st f, snd (remove_intermediates sig how k st) f = s_disk st f \/
  (s_disk st f <> Absent /\ snd (remove_intermediates sig how k st) f = Absent /\ how = Normal /\ all_secondary k = false /\ In f (k_table k) /\ prey k (s_files st) f).
Proof.
  intros sig how k st f. unfold remove_intermediates. destruct how; try (left; reflexivity).
  - destruct (all_secondary k); [left; reflexivity|]. destruct (sweep_disk Normal k (s_files st) (k_table k) (s_disk st) f) as [Z|(A & B & C & D & _)]; [left; exact Z|right; auto 8].
  - destruct (_ || _); [left; reflexivity|]. left. rewrite sweep_dry; reflexivity.
Qed.

(** Where a file comes from. *)
Lemma whole_made : forall m k disk clock passes fuel goals f r st, private m f -> m_how m <> Touch -> whole m k disk clock passes fuel goals = Ok r st ->
  (exists ok, In (Finish f ok) (s_trace st)) \/ s_disk st f = disk f.
Proof.
  intros m k disk clock passes fuel goals f r st PR HT E. set (P := fun st => (exists ok, In (Finish f ok) (s_trace st)) \/ s_disk st f = disk f).
  assert (X1 : forall e st, P st -> P (emit e st)). { intros e s [(ok & Z)|Z]; [left; exists ok; right; exact Z|right; exact Z]. }
  assert (X2 : forall g s, m_how m = Touch -> m_cmds m g = true -> m_phony m g = false -> P s -> let t := m_world m (s_clock s) in
    P (mkstate (s_files s) (if t_ok t then t_effect t g (s_disk s) else s_disk s) (s_jobs s) (S (s_clock s)) (s_trace s) (s_pass s))) by (intros g s Z; contradiction).
  assert (X3 : forall g s, In g (s_jobs s) -> P s -> let t := m_world m (s_clock s) in
    P (mkstate (s_files s) (t_effect t g (s_disk s)) (remove Nat.eq_dec g (s_jobs s)) (S (s_clock s)) (Finish g (t_ok t) :: s_trace s) (s_pass s))).
  { intros g s _ Z t. destruct (Nat.eq_dec g f) as [->|N]; [left; exists (t_ok t); left; reflexivity|]. destruct Z as [(ok & Z)|Z]; [left; exists ok; right; exact Z|]. right. cbn [s_disk]. unfold t. rewrite (PR _ g _ N). exact Z. }
  assert (X4 : forall g s, m_cmds m g = true -> P s -> P (mkstate (s_files s) (s_disk s) (s_jobs s ++ [g]) (S (s_clock s)) (Start g :: s_trace s) (s_pass s))). { intros g s _ Z. exact (X1 (Start g) s Z). }
  assert (B : P_Keep.kept P (build m disk clock passes fuel goals)).
  { apply P_Keep.chain_P; auto. right. reflexivity. }
  unfold whole in E. destruct (build m disk clock passes fuel goals) as [s st1|st1|]; try discriminate E; unfold die in E.
  all: match type of E with bind ?r _ = _ => assert (K : P_Keep.kept P r) by (apply P_Keep.reaps_P; auto); destruct r as [u st2|st2|]; cbn [bind] in E; try discriminate E; injection E as <- <-; exact K end.
Qed.

(** The end of the children leaves the marks as they are. *)
Definition ended (st : state) : Prop := forall f ok, In (Finish f ok) (s_trace st) -> f_status (s_files st f) <> NoAttempt.
Lemma notice_marks : forall m f st, m_how m = Normal -> let st' := notice_finished_file (m_phony m) (m_target m) (m_cmds m) (m_double m) (fun f => f) (fun f => [f]) (m_how m) (m_world m) f st in
  (forall g, f_intermediate (s_files st' g) = f_intermediate (s_files st g)) /\ (forall g, f_status (s_files st g) <> NoAttempt -> f_status (s_files st' g) <> NoAttempt) /\ s_trace st' = s_trace st.
Proof.
  intros m f st HN st'. subst st'. unfold notice_finished_file. rewrite HN. cbn [andb orb]. cbv zeta.
  assert (U : forall h, (forall x, f_intermediate (h x) = f_intermediate x) -> (forall x, f_status x <> NoAttempt -> f_status (h x) <> NoAttempt) -> forall s,
    ((forall g, f_intermediate (s_files s g) = f_intermediate (s_files st g)) /\ (forall g, f_status (s_files st g) <> NoAttempt -> f_status (s_files s g) <> NoAttempt) /\ s_trace s = s_trace st) ->
    ((forall g, f_intermediate (s_files (upd f h s) g) = f_intermediate (s_files st g)) /\ (forall g, f_status (s_files st g) <> NoAttempt -> f_status (s_files (upd f h s) g) <> NoAttempt) /\ s_trace (upd f h s) = s_trace st)).
  { intros h A B s (C & D & E). cbn [upd s_files s_trace]. split; [|split; [|exact E]]; intros g; destruct (g =? f); auto. rewrite A. apply C. }
  set (st1 := upd f _ st). set (st2 := if _ || false then _ else st1). set (st3 := if m_double m f then _ else st2).
  assert (H3 : (forall g, f_intermediate (s_files st3 g) = f_intermediate (s_files st g)) /\ (forall g, f_status (s_files st g) <> NoAttempt -> f_status (s_files st3 g) <> NoAttempt) /\ s_trace st3 = s_trace st).
  { assert (H1 : (forall g, f_intermediate (s_files st1 g) = f_intermediate (s_files st g)) /\ (forall g, f_status (s_files st g) <> NoAttempt -> f_status (s_files st1 g) <> NoAttempt) /\ s_trace st1 = s_trace st) by (apply U; auto).
    clearbody st1. assert (H2 : (forall g, f_intermediate (s_files st2 g) = f_intermediate (s_files st g)) /\ (forall g, f_status (s_files st g) <> NoAttempt -> f_status (s_files st2 g) <> NoAttempt) /\ s_trace st2 = s_trace st)
      by (subst st2; destruct (_ || _); [apply U; auto|exact H1]).
    clearbody st2. subst st3. destruct (m_double m f); [|exact H2]. cbn [forallb]. rewrite Bool.andb_true_r. destruct (f_updated _); [|exact H2]. unfold upd_all. cbn [fold_left]. apply U; auto. }
  clearbody st3. destruct (us_rank _ =? 1); [|exact H3]. apply U; auto. intros x _ Z. discriminate Z.
Qed.
Lemma reaps_marks : forall m kg n st r st', m_how m = Normal -> ended st -> reaps (m_phony m) (m_target m) (m_cmds m) (m_double m) (fun f => f) (fun f => [f]) kg (m_how m) (m_world m) n st = Ok r st' ->
  ended st' /\ forall g, f_intermediate (s_files st' g) = f_intermediate (s_files st g).
Proof.
  intros m kg n. induction n as [|n IH]; intros st r st' HN E R; cbn [reaps] in R; [injection R as <- <-; auto|].
  unfold reap1 in R. destruct (s_jobs st) as [|j js] eqn:J; [cbn [bind] in R; exact (IH st r st' HN E R)|]. rewrite <- J in R. cbv zeta in R.
  set (f := nth _ (s_jobs st) j) in R. set (t := m_world m (s_clock st)) in R. set (st1 := mkstate _ _ _ _ _ _) in R. set (st2 := upd f _ st1) in R.
  destruct (notice_marks m f st2 HN) as (A & B & C). set (st3 := notice_finished_file _ _ _ _ _ _ _ _ f st2) in *.
  assert (F1 : forall g, f_intermediate (s_files st2 g) = f_intermediate (s_files st g)) by (intros g; subst st2 st1; cbn [upd s_files]; destruct (g =? f); reflexivity).
  assert (E3 : ended st3).
  { intros g ok IN. apply B. rewrite C in IN. subst st2 st1. cbn [upd s_files s_trace] in *. destruct (g =? f) eqn:GF; [cbn [f_status with_status]; destruct (t_ok t); discriminate|].
    destruct IN as [IN|IN]; [|exact (E g ok IN)]. injection IN as X _. rewrite X, Nat.eqb_refl in GF. discriminate. }
  clearbody st3. destruct (t_ok t || kg); cbn [bind] in R; [|discriminate R]. destruct (IH st3 r st' HN E3 R) as [X Y]. split; [exact X|]. intros g. rewrite Y, A. apply F1.
Qed.
(** What was intermediate, missing and made is found by the sweep, if the goals were walked to the end. *)
Lemma whole_prey : forall m k disk N clock passes fuel goals r st s st1, fits m disk N goals -> 2 * N + 2 <= fuel -> 2 * N + 1 <= passes -> m_how m = Normal -> writes_own m ->
  build m disk clock passes fuel goals = Ok s st1 -> whole m k disk clock passes fuel goals = Ok r st ->
  forall f ok, m_inter m f = true -> disk f = Absent -> In (Finish f ok) (s_trace st) -> f_intermediate (s_files st f) = true /\ f_status (s_files st f) <> NoAttempt.
Proof.
  intros m k disk N clock passes fuel goals r st s st1 FITS F1 F2 HN OW B W f ok IT DA FN. unfold whole in W. rewrite B in W. unfold die in W.
  pose proof (final m disk N clock goals FITS passes fuel F1 F2) as K. rewrite B in K. destruct K as [[FI _] _].
  match type of W with bind ?r _ = _ => destruct r as [u st2|st2|] eqn:R; cbn [bind] in W; try discriminate W end. injection W as _ <-.
  assert (E1 : ended st1). { intros g o IN. pose proof (FI g) as F. apply (fi_status F). exact (proj1 (fi_finish F _ IN)). }
  destruct (reaps_marks m _ _ st1 _ _ HN E1 R) as [A C]. split; [|exact (A f ok FN)]. rewrite C. destruct (f_intermediate (s_files st1 f)) eqn:Z; [reflexivity|].
  exfalso. destruct (FI f). exact (fi_cleared OW HN IT Z DA).
Qed.
Lemma whole_removes : forall m k disk clock passes fuel goals r st, whole m k disk clock passes fuel goals = Ok r st -> r = remove_intermediates false (m_how m) k st.
Proof.
  intros m k disk clock passes fuel goals r st E. unfold whole in E. destruct (build m disk clock passes fuel goals) as [s st1|st1|]; try discriminate E; unfold die in E.
  all: match type of E with bind ?r _ = _ => destruct r as [u st2|st2|]; cbn [bind] in E; try discriminate E; injection E as <- <-; reflexivity end.
Qed.
Lemma whole_unmarked : forall m k disk clock passes fuel goals r st f, whole m k disk clock passes fuel goals = Ok r st -> m_inter m f = false -> f_intermediate (s_files st f) = false.
Proof.
  intros m k disk clock passes fuel goals r st f E I.
  refine (proj1 (proj2 (whole_kept m k disk clock passes fuel goals f False r st _ _ _ E)) I); [intros []|intros []|left; exact I].
Qed.
(** A file that was there before, with a recipe. *)
Lemma whole_old : forall m k disk clock passes fuel goals r st f, whole m k disk clock passes fuel goals = Ok r st ->
  disk f <> Absent -> m_phony m f = false -> m_cmds m f = true -> m_tried m f = false -> spared m f -> ~ prey k (s_files st) f.
Proof.
  intros m k disk clock passes fuel goals r st f E NA PH CM TR SP [EL ST].
  assert (PI : P f True (initial (m_deps m) (m_phony m) (m_inter m) (m_tried m) disk clock)).
  { right. split; [exact Logic.I|]. split; [|split; [exact NA|intros []]]. unfold asleep, initial. cbn. rewrite PH, TR. auto. }
  destruct (proj1 (whole_kept m k disk clock passes fuel goals f True r st (fun _ => SP) (fun _ => CM) PI E)) as [C|(_ & (_ & _ & U & _) & _)].
  - unfold eligible in EL. rewrite C in EL. discriminate EL.
  - exact (ST U).
Qed.
Lemma prey_keep : forall k files f, prey k files f -> all_secondary k = false -> ~ to_keep k f.
Proof.
  intros k files f [E _] A K. unfold eligible in E. apply andb_true_iff in E as [E G]. apply andb_true_iff in E as [E SE]. apply andb_true_iff in E as [_ PR].
  apply negb_true_iff in G, SE. unfold secondary in SE. apply orb_false_iff in SE as [S1 S2]. unfold precious in PR.
  destruct K as [I D|I D|l I J|I|I J|I].
  - rewrite D, (proj2 (mem_in _ _) I) in PR. discriminate PR.
  - rewrite D, I, orb_true_r in PR. discriminate PR.
  - assert (X : existsb (mem f) (k_secondary k) = true) by (apply mem_any; exists l; auto). congruence.
  - apply all_in in I. congruence.
  - rewrite I, J in S2. discriminate S2.
  - unfold cmd_target in G. rewrite (proj2 (mem_in _ _) I) in G. discriminate G.
Qed.
Lemma keep_prey : forall k files f, f_intermediate (files f) = true -> f_status (files f) <> NoAttempt -> ~ to_keep k f -> prey k files f.
Proof.
  intros k files f I U K. split; [|exact U]. unfold eligible. rewrite I. cbn [andb]. apply andb_true_iff. split; [apply andb_true_iff; split|]; [| apply negb_true_iff| apply negb_true_iff].
  - destruct (k_dontcare k f) eqn:D; [reflexivity|]. cbn [orb]. apply negb_true_iff. destruct (precious k f) eqn:P0; [|reflexivity]. exfalso. apply K. unfold precious in P0. apply orb_true_iff in P0 as [X|X]; [apply keep_precious; [apply mem_in; exact X|exact D]|apply keep_pattern; assumption].
  - destruct (secondary k f) eqn:S0; [|reflexivity]. exfalso. apply K. unfold secondary in S0. apply orb_true_iff in S0 as [X|X]; [apply mem_any in X as (l & A & B); exact (keep_secondary k f l A B)|apply andb_true_iff in X as [X Y]; apply keep_mentioned; assumption].
  - destruct (cmd_target k f) eqn:G; [|reflexivity]. exfalso. apply K. apply keep_given, mem_in. exact G.
Qed.
Lemma marked_is : forall k f, all_secondary k = false -> marked k f = true -> is_intermediate k f.
Proof.
  intros k f A M. unfold marked in M. rewrite A in M. cbn [orb] in M. apply orb_true_iff in M as [M|M]; [apply orb_true_iff in M as [M|M]|].
  - left. apply mem_in. exact M.
  - right. left. apply mem_any. exact M.
  - right. right. exact M.
Qed.
Lemma is_marked : forall k f, is_intermediate k f -> marked k f = true.
Proof.
  intros k f [I|[I|I]]; unfold marked.
  - rewrite (proj2 (mem_in _ _) I), orb_true_r. reflexivity.
  - rewrite (proj2 (mem_any _ _) I), orb_true_r. reflexivity.
  - rewrite I, orb_true_r. reflexivity.
Qed.

(** All children are waited for. *)
Lemma notice_jobs : forall m f st, s_jobs (notice_finished_file (m_phony m) (m_target m) (m_cmds m) (m_double m) (fun f => f) (fun f => [f]) (m_how m) (m_world m) f st) = s_jobs st.
Proof.
  intros m f st. unfold notice_finished_file. cbv zeta. set (st1 := upd f _ st). assert (H1 : s_jobs st1 = s_jobs st) by reflexivity. clearbody st1.
  set (st2 := if _ && _ && _ && _ then _ else st1). assert (H2 : s_jobs st2 = s_jobs st) by (subst st2; destruct (_ && _ && _ && _); exact H1). clearbody st2.
  set (st3 := if _ || _ then _ else st2). assert (H3 : s_jobs st3 = s_jobs st) by (subst st3; destruct (_ || _); exact H2). clearbody st3.
  set (st4 := if m_double m f then _ else st3). assert (H4 : s_jobs st4 = s_jobs st) by (subst st4; destruct (m_double m f); [|exact H3]; destruct (forallb _ _); exact H3). clearbody st4.
  destruct (us_rank _ =? 1); exact H4.
Qed.
Lemma remove_shorter : forall l (f : nat), In f l -> length (remove Nat.eq_dec f l) < length l.
Proof.
  intros l f H. induction l as [|a l IH]; [destruct H|]. cbn [remove]. destruct (Nat.eq_dec f a) as [->|N].
  - pose proof (remove_length_le Nat.eq_dec l a). cbn [length]. lia.
  - cbn [length]. destruct H as [H|H]; [congruence|]. specialize (IH H). lia.
Qed.
Lemma reaps_empty : forall m kg n st r st', length (s_jobs st) <= n -> reaps (m_phony m) (m_target m) (m_cmds m) (m_double m) (fun f => f) (fun f => [f]) kg (m_how m) (m_world m) n st = Ok r st' -> s_jobs st' = [].
Proof.
  intros m kg n. induction n as [|n IH]; intros st r st' L R; cbn [reaps] in R.
  - injection R as <- <-. destruct (s_jobs st); [reflexivity|cbn in L; lia].
  - unfold reap1 in R. destruct (s_jobs st) as [|j js] eqn:J; [cbn [bind] in R; apply (IH st r st'); [rewrite J; cbn; lia|exact R]|]. rewrite <- J in R. cbv zeta in R.
    set (f := nth _ (s_jobs st) j) in R. assert (IN : In f (s_jobs st)) by (apply nth_In, Nat.mod_upper_bound; rewrite J; discriminate).
    set (st3 := notice_finished_file _ _ _ _ _ _ _ _ f _) in R. assert (JJ : s_jobs st3 = remove Nat.eq_dec f (s_jobs st)) by (subst st3; rewrite notice_jobs; reflexivity).
    clearbody st3. destruct (_ || kg); cbn [bind] in R; [|discriminate R]. apply (IH st3 r st'); [|exact R]. rewrite JJ. pose proof (remove_shorter _ _ IN) as K. assert (LL : length (s_jobs st) = S (length js)) by (rewrite J; reflexivity). cbn [length] in L. lia.
Qed.
Lemma reaps_ok : forall m n st, exists st', reaps (m_phony m) (m_target m) (m_cmds m) (m_double m) (fun f => f) (fun f => [f]) true (m_how m) (m_world m) n st = Ok tt st'.
Proof.
  intros m n. induction n as [|n IH]; intros st; cbn [reaps]; [exists st; reflexivity|]. unfold reap1. destruct (s_jobs st) as [|j js]; [cbn [bind]; apply IH|]. cbv zeta. rewrite orb_true_r. cbn [bind]. apply IH.
Qed.
Lemma reaps_nil : forall m kg n st, s_jobs st = [] -> reaps (m_phony m) (m_target m) (m_cmds m) (m_double m) (fun f => f) (fun f => [f]) kg (m_how m) (m_world m) n st = Ok tt st.
Proof. intros m kg n. induction n as [|n IH]; intros st J; cbn [reaps]; [reflexivity|]. unfold reap1. rewrite J. cbn [bind]. apply IH. exact J. Qed.
