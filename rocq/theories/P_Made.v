(** What a whole build comes to. *)
From Verif Require Import Base M_Build S_Build P_Notice P_Build.
Arguments fi_status {_ _ _ _ _ _ _ _ _ _ _ _ _}.
Arguments fi_started {_ _ _ _ _ _ _ _ _ _ _ _ _}.
Arguments fi_idle {_ _ _ _ _ _ _ _ _ _ _ _ _}.
Arguments fi_phony {_ _ _ _ _ _ _ _ _ _ _ _ _}.
Arguments fi_finish {_ _ _ _ _ _ _ _ _ _ _ _ _}.
Arguments fi_norule {_ _ _ _ _ _ _ _ _ _ _ _ _}.
Arguments fi_deps {_ _ _ _ _ _ _ _ _ _ _ _ _}.
Arguments fi_kept {_ _ _ _ _ _ _ _ _ _ _ _ _}.
Arguments fi_disk {_ _ _ _ _ _ _ _ _ _ _ _ _}.
Arguments fi_cache {_ _ _ _ _ _ _ _ _ _ _ _ _}.
Arguments fi_good {_ _ _ _ _ _ _ _ _ _ _ _ _}.
Arguments fi_all {_ _ _ _ _ _ _ _ _ _ _ _ _}.
Arguments fi_bad {_ _ _ _ _ _ _ _ _ _ _ _ _}.
Arguments fi_k {_ _ _ _ _ _ _ _ _ _ _ _ _}.
Arguments fi_made {_ _ _ _ _ _ _ _ _ _ _ _ _}.
Arguments fi_new {_ _ _ _ _ _ _ _ _ _ _ _ _}.
Arguments fi_dry {_ _ _ _ _ _ _ _ _ _ _ _ _}.
Arguments fi_shown {_ _ _ _ _ _ _ _ _ _ _ _ _}.
Arguments gi_mode {_ _ _ _ _ _ _ _ _ _ _ _ _ _ _}.
Arguments gi_still {_ _ _ _ _ _ _ _ _ _ _ _ _ _ _}.
Arguments gi_ask {_ _ _ _ _ _ _ _ _ _ _ _ _ _ _}.
Arguments gi_once {_ _ _ _ _ _ _ _ _ _ _ _ _ _ _}.
Arguments gi_ends {_ _ _ _ _ _ _ _ _ _ _ _ _ _ _}.
Arguments gi_dom {_ _ _ _ _ _ _ _ _ _ _ _ _ _ _}.
Arguments gi_norule {_ _ _ _ _ _ _ _ _ _ _ _ _ _ _}.
Arguments gi_order {_ _ _ _ _ _ _ _ _ _ _ _ _ _ _}.
Arguments gi_need {_ _ _ _ _ _ _ _ _ _ _ _ _ _ _}.
Arguments gi_drop {_ _ _ _ _ _ _ _ _ _ _ _ _ _ _}.

Section Made.
  Variable m : make.
  Variable disk : nat -> time.
  Variable N clock : nat.
  Variable goals : list nat.
  Hypothesis FITS : fits m disk N goals.
  Notation G := (m_deps m).
  Notation edge := (edge G).
  Notation wanted := (wanted m goals).
  Notation Inv' := (Inv (m_phony m) (m_target m) (m_cmds m) (m_blank m) (m_double m) (m_keep m) (m_always m) (m_how m) (m_world m) G (m_inter m) disk (m_tried m) N clock wanted).
  Notation FI' := (FI (m_phony m) (m_target m) (m_cmds m) (m_blank m) (m_keep m) (m_how m) (m_world m) G (m_inter m) disk (m_tried m)).
  Notation GI' := (GI (m_phony m) (m_target m) (m_cmds m) (m_blank m) (m_double m) (m_always m) (m_how m) (m_world m) G (m_inter m) disk N clock wanted).
  Notation Dead' := (Dead (m_phony m) (m_target m) (m_cmds m) (m_blank m) (m_double m) (m_keep m) (m_always m) (m_how m) (m_world m) G (m_inter m) disk N clock wanted).
  Definition over (s : us) (st : state) : Prop :=
    Inv' st /\ (forall g, In g goals -> f_updated (s_files st g) = true) /\
    (fine s -> forall g, In g goals -> f_status (s_files st g) = Success) /\
    (2 <= us_rank s -> exists g, In g goals /\ f_status (s_files st g) = s).
  Lemma final : forall passes fuel, 2 * N + 2 <= fuel -> 2 * N + 1 <= passes ->
    match build m disk clock passes fuel goals with Ok s st => over s st | Die st => Dead' st | Out => False end.
  Proof.
    intros passes fuel F1 F2. destruct FITS as (A & B & C & D).
    assert (CL : forall f d o, dom N wanted f -> edge f d o -> dom N wanted d).
    { intros f d o [X (g & Y & Z)] E. split; [exact (B f d o X E)|]. exists g. split; [exact Y|]. exact (reach_step _ _ _ _ _ Z E). }
    assert (GO : forall g, In g goals -> dom N wanted g) by (intros g K; split; [exact (A g K)|exists g; split; [exact K|apply reach_refl]]).
    exact (build_post (m_phony m) (m_target m) (m_cmds m) (m_blank m) (m_double m) (m_keep m) (m_always m) (m_how m) (m_world m) G (m_inter m) disk (m_tried m) N clock wanted C D CL passes fuel goals GO F1 F2).
  Qed.
  Lemma leaves_GI : forall passes fuel st, 2 * N + 2 <= fuel -> 2 * N + 1 <= passes -> leaves (build m disk clock passes fuel goals) st -> GI' st.
  Proof.
    intros passes fuel st F1 F2 [E|(s & E)]; pose proof (final passes fuel F1 F2) as K; rewrite E in K; [exact (proj1 (proj2 K))|exact (proj2 (proj1 K))].
  Qed.
  Lemma leaves_contained : forall passes fuel st, 2 * N + 2 <= fuel -> 2 * N + 1 <= passes -> leaves (build m disk clock passes fuel goals) st -> contained G (m_inter m) (m_phony m) (s_trace st).
  Proof.
    intros passes fuel st F1 F2 [E|(s & E)]; pose proof (final passes fuel F1 F2) as K; rewrite E in K; [exact (proj1 (proj2 (proj2 K)))|]. destruct K as [I _].
    eapply held; [exact I|auto|auto].
  Qed.
  Lemma leaves_present : forall passes fuel st, 2 * N + 2 <= fuel -> 2 * N + 1 <= passes -> (m_how m = Normal -> writes_own m) -> leaves (build m disk clock passes fuel goals) st -> present G (m_phony m) disk (m_cmds m) (m_blank m) (m_target m) (s_trace st).
  Proof.
    intros passes fuel st F1 F2 OW [E|(s & E)]; pose proof (final passes fuel F1 F2) as K; rewrite E in K; [exact (proj1 (proj2 (proj2 (proj2 K))) OW)|]. destruct K as [I _].
    eapply here; [exact (proj1 (proj2 (proj2 FITS)))|exact I|exact OW].
  Qed.
  Lemma leaves_stops : forall passes fuel st, 2 * N + 2 <= fuel -> 2 * N + 1 <= passes -> m_keep m = false -> leaves (build m disk clock passes fuel goals) st -> stops (s_trace st).
  Proof.
    intros passes fuel st F1 F2 KG [E|(s & E)] t2 e t1 T FA; pose proof (final passes fuel F1 F2) as K; rewrite E in K.
    - destruct K as (_ & _ & _ & _ & e0 & t0 & T0 & _ & NF). destruct t2 as [|e2 t2]; [reflexivity|]. exfalso. rewrite T0 in T. cbn [app] in T. injection T as _ T. apply (NF e FA). rewrite T. apply in_or_app. right. left. reflexivity.
    - destruct K as [I _]. exfalso. refine (no_failure _ _ _ _ _ _ _ _ _ _ _ _ _ _ _ _ _ st I KG e FA _); [exact (proj1 (proj2 (proj2 FITS)))|]. rewrite T. apply in_or_app. right. left. reflexivity.
  Qed.

  (** Downwards from the goals. *)
  Section Over.
    Variable s : us.
    Variable st : state.
    Hypothesis OV : over s st.
    Let I : Inv' st := proj1 OV.
    Lemma needs_updated : forall g f, In g goals -> needs G (m_inter m) (m_phony m) (s_trace st) g f -> f_updated (s_files st f) = true.
    Proof.
      intros g f GO NE. induction NE as [f|f h d o NE IH E ND ID]; [exact (proj1 (proj2 OV) f GO)|]. specialize (IH GO).
      destruct (fi_kept (proj1 I h) d o E) as [(k & K1 & <- & <-)|K]; [|contradiction]. apply (fi_all (proj1 I h) (or_introl IH) k K1). right. exact ID.
    Qed.
    Lemma needs_well : forall g f, In g goals -> f_status (s_files st g) = Success -> needs G (m_inter m) (m_phony m) (s_trace st) g f -> f_updated (s_files st f) = true /\ f_status (s_files st f) = Success.
    Proof.
      intros g f GO SU NE. induction NE as [f|f h d o NE IH E ND ID]; [split; [exact (proj1 (proj2 OV) f GO)|exact SU]|]. specialize (IH GO SU).
      destruct (fi_kept (proj1 I h) d o E) as [(k & K1 & <- & <-)|K]; [|contradiction]. exact (fi_good (proj1 I h) (or_introl IH) k K1 ID).
    Qed.
    Notation accomplished' := (accomplished G (m_inter m) (m_phony m) (m_cmds m) (m_blank m) (m_target m) (s_trace st) (s_disk st)).
    Lemma well_accomplished : m_how m = Normal -> writes_own m -> forall f, f_updated (s_files st f) = true -> f_status (s_files st f) = Success -> accomplished' f.
    Proof.
      intros HN OW f U SU. pose proof (proj1 I f) as F.
      destruct (before_now _ _ _ _ _ _ _ _ _ _ _ st f F U SU (s_trace st)) as (B1 & B2 & B3); [auto|]. split; [exact B1|]. split; [exact B2|]. split; [exact B3|].
      intros UN. destruct (fi_new F (ltac:(congruence) : m_how m <> Touch) U SU UN) as (mt & M & NA & DS). assert (PF : m_phony m f = false) by (destruct (m_phony m f) eqn:PH; [rewrite (fi_phony F PH) in M; congruence|reflexivity]). destruct (fi_cache F OW HN mt M) as [PH|MD]; [congruence|].
      split; [exact PF|]. split; [congruence|]. intros d E ND ID. destruct (fi_kept F d false E) as [(k & K1 & <- & K2)|K]; [|contradiction]. destruct (DS k K1 K2 ID) as (UD & md & MM & NB & NW).
      pose proof (proj1 I (d_file k)) as FD. assert (PD : m_phony m (d_file k) = false) by (destruct (m_phony m (d_file k)) eqn:PH; [rewrite (fi_phony FD PH) in MM; congruence|reflexivity]). destruct (fi_cache FD OW HN md MM) as [PH|ME]; [congruence|]. subst. split; [exact PD|]. split; [exact NB|apply not_later; exact NW].
    Qed.
    Lemma well_foreseen : m_how m = Dry \/ m_how m = Ask -> (forall f, disk f <> New) -> forall f, f_updated (s_files st f) = true -> f_status (s_files st f) = Success -> foreseen G (m_inter m) (m_phony m) disk (m_cmds m) (m_blank m) (m_target m) (s_trace st) f.
    Proof.
      intros HD NN f U SU. pose proof (proj1 I f) as F. assert (NT : m_how m <> Touch) by (destruct HD; congruence).
      destruct (before_now _ _ _ _ _ _ _ _ _ _ _ st f F U SU (s_trace st)) as (_ & _ & B3); [auto|]. split; [exact B3|].
      intros UN. destruct (fi_new F NT U SU UN) as (mt & M & NA & DS). assert (PF : m_phony m f = false) by (destruct (m_phony m f) eqn:PH; [rewrite (fi_phony F PH) in M; congruence|reflexivity]).
      assert (MD : mt = disk f).
      { destruct (fi_dry F HD mt M) as [Z|[Z|(_ & Z1 & Z2)]]; [congruence|exact Z|]. exfalso. destruct UN as [(_ & X1 & X2)|(X1 & _)]; [destruct Z2; congruence|congruence]. }
      split; [exact PF|]. split; [congruence|]. intros d E ND ID. destruct (fi_kept F d false E) as [(k & K1 & <- & K2)|K]; [|contradiction]. destruct (DS k K1 K2 ID) as (UD & md & MM & NB & NW).
      pose proof (proj1 I (d_file k)) as FD. assert (PD : m_phony m (d_file k) = false) by (destruct (m_phony m (d_file k)) eqn:PH; [rewrite (fi_phony FD PH) in MM; congruence|reflexivity]).
      assert (NW' : md <> New). { intros ->. apply not_later in NW. apply NW. rewrite MD in *. pose proof (NN f). destruct (disk f) as [|n|]; [contradiction|apply later_new|congruence]. }
      assert (ME : md = disk (d_file k)) by (destruct (fi_dry FD HD md MM) as [Z|[Z|(Z & _)]]; congruence).
      split; [exact PD|]. split; [congruence|]. split; [subst; apply not_later; exact NW|].
      intros ST. destruct HD as [HD|HD]; [|exact (gi_ask (proj2 I) (or_introl HD) _ ST)].
      apply NW'. rewrite (fi_shown FD HD PD ST) in MM. congruence.
    Qed.
    Lemma over_bad : forall f, f_updated (s_files st f) = true -> f_status (s_files st f) = Success \/ m_how m = Ask \/ m_how m = Touch \/ hopeless G (s_trace st) f.
    Proof. intros f U. destruct (bad (f_status (s_files st f))) eqn:B; [right; exact (fi_bad (proj1 I f) U B)|left; apply bad_false; exact B]. Qed.
    Lemma over_not_doomed : forall f, f_updated (s_files st f) = true -> f_status (s_files st f) = Success -> ~ doomed G (m_inter m) (m_phony m) (s_trace st) f.
    Proof. intros f U SU DM. eapply not_doomed; [exact I| | |exact DM|exact U|exact SU]; auto. Qed.
    Lemma over_keep : m_keep m = false -> fine s.
    Proof.
      intros KG. destruct (Nat.lt_ge_cases (us_rank s) 2) as [K|K]; [exact K|]. exfalso. destruct (proj2 (proj2 (proj2 OV)) K) as (g & GO & SG). destruct (proj1 (proj2 (proj2 FITS))) as [Z|Z]; [congruence|].
      rewrite (fi_k (proj1 I g) (proj1 (proj2 OV) g GO) KG Z) in SG. rewrite <- SG in K. cbn in K. lia.
    Qed.
  End Over.
End Made.

(** ** A second build *)
Lemma oldest : forall (p : event -> bool) tr e, In e tr -> p e = true -> exists t2 x t1, tr = t2 ++ x :: t1 /\ p x = true /\ forall y, In y t1 -> p y = false.
Proof.
  intros p tr. induction tr as [|a tr IH]; intros e H K; [destruct H|].
  destruct (existsb p tr) eqn:X.
  - apply existsb_exists in X. destruct X as (y & Y1 & Y2). destruct (IH y Y1 Y2) as (t2 & x & t1 & -> & A & B). exists (a :: t2), x, t1. auto.
  - exists [], a, tr. assert (NO : forall y, In y tr -> p y = false). { intros y Y. destruct (p y) eqn:Z; [|reflexivity]. exfalso. assert (W : existsb p tr = true) by (apply existsb_exists; exists y; auto). congruence. }
    split; [reflexivity|]. split; [|exact NO]. destruct H as [-> |H]; [exact K|]. rewrite (NO e H) in K. discriminate.
Qed.
Definition work_event (e : event) : bool := match e with Start _ | NoRule _ => true | _ => false end.

Section Twice.
  Variable m : make.
  Variable N : nat.
  Variable disk1 : nat -> time.
  Variable clock1 clock2 passes1 passes2 fuel1 fuel2 : nat.
  Variable goals goals2 : list nat.
  Variable s : us.
  Variable st : state.
  Notation G := (m_deps m).
  Hypothesis FITS : fits m disk1 N goals.
  Hypothesis F1 : 2 * N + 2 <= fuel1.
  Hypothesis F2 : 2 * N + 1 <= passes1.
  Hypothesis F3 : 2 * N + 2 <= fuel2.
  Hypothesis F4 : 2 * N + 1 <= passes2.
  Hypothesis HN : m_how m = Normal.
  Hypothesis AL : m_always m = false.
  Hypothesis DB : forall f, m_double m f = false.
  Hypothesis NI : forall f, m_inter m f = false.
  Hypothesis OW : writes_own m.
  Hypothesis WN : writes_new m.
  Hypothesis AC : forall f d o, edge G f d o -> ~ reach G d f.
  Hypothesis PC : forall f, wanted m goals f -> m_phony m f = true -> m_cmds m f = false.
  Hypothesis PD : forall f d, wanted m goals f -> m_phony m f = false -> edge G f d false -> m_phony m d = false.
  Hypothesis RUN : build m disk1 clock1 passes1 fuel1 goals = Ok s st.
  Hypothesis GOOD : fine s.
  Hypothesis THERE : forall f, wanted m goals f -> m_phony m f = false -> s_disk st f <> Absent.
  Hypothesis GO2 : forall g, In g goals2 -> wanted m goals g.

  Lemma ov1 : over m disk1 N clock1 goals s st.
  Proof. pose proof (final m disk1 N clock1 goals FITS passes1 fuel1 F1 F2) as K. rewrite RUN in K. exact K. Qed.
  Lemma wanted_lt : forall f, wanted m goals f -> f < N.
  Proof.
    intros f (g & K & R). induction R as [g|g h d o R IH E]; [exact (proj1 FITS g K)|]. exact (proj1 (proj2 FITS) h d o (IH K) E).
  Qed.
  Lemma no_drop : forall f d o, edge G f d o -> ~ In (Drop f d) (s_trace st).
  Proof. intros f d o E K. destruct (gi_drop (proj2 (proj1 ov1)) f d K) as [R _]. exact (AC f d o E R). Qed.
  Lemma wanted_well : forall f, wanted m goals f -> f_updated (s_files st f) = true /\ f_status (s_files st f) = Success.
  Proof.
    intros f (g & K & R). apply (needs_well m disk1 N clock1 goals s st ov1 g f K (proj1 (proj2 (proj2 ov1)) GOOD g K)).
    assert (W : forall h, reach G g h -> wanted m goals h) by (intros h X; exists g; auto).
    induction R as [g|g h d o R IH E]; [apply needs_refl|]. refine (needs_step _ _ _ _ _ _ _ o (IH K W) E _ (or_introl (NI d))). exact (no_drop h d o E).
  Qed.
  (** Nothing is out of date after the first build. *)
  Lemma not_older : forall f d, wanted m goals f -> m_phony m f = false -> (m_cmds m f = true /\ m_blank m f = false) \/ (m_cmds m f = false /\ m_target m f = false) -> edge G f d false -> ~ later (s_disk st d) (s_disk st f).
  Proof.
    intros f d W PH CM E. destruct (wanted_well f W) as [U SU]. pose proof (proj1 (proj1 ov1) f) as F.
    destruct (well_accomplished m disk1 N clock1 goals s st ov1 HN OW f U SU) as (A1 & _ & _ & A2).
    assert (CA : In (Start f) (s_trace st) \/ unmade (m_phony m) (m_cmds m) (m_blank m) (m_target m) (s_trace st) f).
    { destruct CM as [[C B]|[C T]]; [|right; right; auto]. destruct (in_dec Nat.eq_dec f (starts (s_trace st))) as [K|K]; [left; apply starts_in; exact K|right; left]. split; [exact C|]. split; [exact B|]. intros Z. apply K. apply starts_in. exact Z. }
    destruct CA as [K|K].
    - assert (WS : stamps (m_world m)) by (intros c h D n T; apply not_later; exact (WN c h D n T)).
      destruct (fi_made F OW WS HN (A1 K) d false E) as [Z|[_ Z]]; [destruct (no_drop f d false E Z)|apply not_later; exact Z].
    - exact (proj2 (proj2 (proj2 (proj2 (A2 K)) d E (no_drop f d false E) (or_introl (NI d))))).
  Qed.
  Lemma fits2 : fits m (s_disk st) N goals2.
  Proof.
    destruct FITS as (A & B & C & D). split; [intros g K; exact (wanted_lt g (GO2 g K))|]. split; [exact B|]. split; [exact C|]. left. exact NI.
  Qed.
  Lemma wanted2 : forall f, wanted m goals2 f -> wanted m goals f.
  Proof.
    intros f (g & K & R). destruct (GO2 g K) as (h & H1 & H2). exists h. split; [exact H1|]. clear - R H2. induction R as [g|g k d o R IH E]; [exact H2|]. exact (reach_step _ _ _ _ _ (IH H2) E).
  Qed.
  Lemma second_idle : forall st', leaves (build m (s_disk st) clock2 passes2 fuel2 goals2) st' -> s_trace st' = [].
  Proof.
    intros st' LE. pose proof (leaves_GI m (s_disk st) N clock2 goals2 fits2 passes2 fuel2 st' F3 F4 LE) as GG.
    assert (NW : forall e, In e (s_trace st') -> work_event e = false).
    { intros e K. destruct (work_event e) eqn:WE; [|reflexivity]. exfalso. destruct (oldest work_event (s_trace st') e K WE) as (t2 & x & t1 & T & X & NO).
      assert (IX : In x (s_trace st')) by (rewrite T; apply in_or_app; right; left; reflexivity).
      assert (WF : exists f, (x = Start f \/ x = NoRule f) /\ wanted m goals f /\ m_phony m f = false /\ ((m_cmds m f = true /\ m_blank m f = false) \/ (m_cmds m f = false /\ m_target m f = false))).
      { destruct x as [f|f ok|f|f d]; try discriminate; exists f.
        - destruct (gi_dom GG f IX) as [[_ W] [C B]]. apply wanted2 in W. split; [auto|]. split; [exact W|]. split; [|auto]. destruct (m_phony m f) eqn:PH; [|reflexivity]. rewrite (PC f W PH) in C. discriminate.
        - destruct (gi_norule GG f IX) as [[_ W] (C & B & PH)]. apply wanted2 in W. split; [auto|]. split; [exact W|]. split; [exact PH|auto]. }
      destruct WF as (f & EF & W & PH & CM).
      destruct (gi_need GG OW HN t2 x f t1 T EF) as [Z|[Z|[Z|[[Z _]|(d & E & R)]]]].
      - congruence.
      - exact (THERE f W PH Z).
      - congruence.
      - rewrite DB in Z. discriminate.
      - assert (WD : wanted m goals d) by (destruct W as (g & G1 & G2); exists g; split; [exact G1|exact (reach_step _ _ _ _ _ G2 E)]).
        pose proof (PD f d W PH E) as PHD. destruct R as [d Z|d Z1 Z2|d Z|d ok Z|d e0 Z].
        + congruence.
        + exact (THERE d WD PHD Z2).
        + exact (not_older f d W PH CM E Z).
        + apply in_split in Z. destruct Z as (ta & tb & Z). pose proof (proj2 (gi_ends GG) (t2 ++ x :: ta) d ok tb) as Y. rewrite T, Z, <- app_assoc in Y. specialize (Y eq_refl).
          assert (IS : In (Start d) t1) by (rewrite Z; apply in_or_app; right; right; exact Y). specialize (NO _ IS). discriminate.
        + rewrite NI in Z. discriminate. }
    destruct (s_trace st') as [|e tr] eqn:T; [reflexivity|]. exfalso. pose proof (NW e (or_introl eq_refl)) as WE. destruct e as [f|f ok|f|f d]; try discriminate.
    - pose proof (proj2 (gi_ends GG) [] f ok tr T) as K. specialize (NW _ (or_intror K)). discriminate.
    - assert (IN : In (Drop f d) (s_trace st')) by (rewrite T; left; reflexivity). destruct (gi_drop GG f d IN) as [R (o & E)]. exact (AC f d o E R).
  Qed.
  Lemma hopeless_event : forall tr f, hopeless G tr f -> tr <> [].
  Proof. intros tr f H. induction H as [f H|f H|f d o E H IH]; [| |exact IH]; intros ->; destruct H. Qed.
  Lemma second_ok : exists s' st', build m (s_disk st) clock2 passes2 fuel2 goals2 = Ok s' st' /\ fine s' /\ s_trace st' = [] /\ forall f, s_disk st' f = s_disk st f.
  Proof.
    pose proof (final m (s_disk st) N clock2 goals2 fits2 passes2 fuel2 F3 F4) as K. pose proof second_idle as ID.
    destruct (build m (s_disk st) clock2 passes2 fuel2 goals2) as [s' st'|st'|]; [| |destruct K].
    - specialize (ID st' (or_intror (ex_intro _ s' eq_refl))). exists s', st'. split; [reflexivity|]. split; [|split; [exact ID|]].
      + destruct (Nat.lt_ge_cases (us_rank s') 2) as [Z|Z]; [exact Z|]. exfalso. destruct (proj2 (proj2 (proj2 K)) Z) as (g & GO & SG).
        destruct (over_bad m (s_disk st) N clock2 goals2 s' st' K g (proj1 (proj2 K) g GO)) as [Y|[Y|[Y|Y]]]; try congruence.
        * rewrite Y in SG. rewrite <- SG in Z. cbn in Z. lia.
        * exact (hopeless_event _ _ Y ID).
      + intros f. apply (fi_disk (proj1 (proj1 K) f) OW); [congruence|]. rewrite ID. intros ok [].
    - specialize (ID st' (or_introl eq_refl)). destruct K as (_ & _ & _ & _ & e & t & T & _). congruence.
  Qed.
End Twice.
