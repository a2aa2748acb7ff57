From Verif Require Import Base M_Text M_Var M_Seq M_Goal S_Goal P_Var.
Open Scope string_scope.
Open Scope list_scope.
Open Scope nat_scope.

Lemma has_in c s : has c s = true <-> In c s.
Proof.
  unfold has. rewrite existsb_exists. split; [intros (x & I & E); apply eqc_true in E; subst x; exact I|intros I; exists c; split; [exact I|apply eqc_refl]].
Qed.
Lemma dotted_dec n : match n with c :: _ => c =?c c_dot | [] => false end = true <-> dotted n.
Proof.
  destruct n as [|c r]; [split; [discriminate|intros (x & E); discriminate]|]. split; [intros E; apply eqc_true in E; subst c; exists r; reflexivity|intros (x & E); injection E as -> _; apply eqc_refl].
Qed.
Lemma prefix_split p s : prefixb p s = true <-> s = p ++ skipn (length p) s.
Proof.
  revert s. induction p as [|x p IH]; intros s; cbn [prefixb length skipn app]; [split; reflexivity|]. destruct s as [|y s]; [split; [discriminate|intros H; discriminate]|].
  cbn [skipn]. rewrite andb_true_iff, IH. split.
  - intros [E H]. apply eqc_true in E. subst y. f_equal. exact H.
  - intros H. injection H as -> H. split; [apply eqc_refl|exact H].
Qed.
Lemma two_iff name d ds2 : two_suffixes name d ds2 = true <-> exists a, In a ds2 /\ name = a ++ d.
Proof.
  induction ds2 as [|d2 ds2 IH]; cbn [two_suffixes]; [split; [discriminate|intros (a & [] & _)]|].
  destruct (prefixb d2 name && str_eqb (skipn (length d2) name) d) eqn:E.
  - split; [intros _|reflexivity]. apply andb_true_iff in E. destruct E as [E1 E2]. apply prefix_split in E1. apply str_eqb_eq in E2. exists d2. split; [left; reflexivity|]. rewrite E1, E2. reflexivity.
  - rewrite IH. split; [intros (a & I & H); exists a; split; [right; exact I|exact H]|]. intros (a & [-> |I] & H); [|exists a; split; assumption]. exfalso. subst name.
    rewrite skipn_app, skipn_all, Nat.sub_diag in E. cbn [skipn app] in E. rewrite str_eqb_refl, andb_true_r in E.
    assert (P : prefixb a (a ++ d) = true) by (apply prefix_split; rewrite skipn_app, skipn_all, Nat.sub_diag; reflexivity). congruence.
Qed.
Lemma rejected_iff all name ds : rejected all name ds = true <-> (In name ds /\ ~ dotted name) \/ exists a b, In a all /\ In b ds /\ name = a ++ b.
Proof.
  induction ds as [|d ds IH]; cbn [rejected].
  { split; [discriminate|intros [[[] _]|(a & b & _ & [] & _)]]. }
  destruct (negb match d with c :: _ => c =?c c_dot | [] => false end && str_eqb name d) eqn:E1.
  { split; [intros _|reflexivity]. apply andb_true_iff in E1. destruct E1 as [E1 E2]. apply str_eqb_eq in E2. subst d. left. split; [left; reflexivity|].
    intros D. apply dotted_dec in D. rewrite D in E1. discriminate. }
  destruct (two_suffixes name d all) eqn:E2.
  { split; [intros _|reflexivity]. apply two_iff in E2. destruct E2 as (a & I & H). right. exists a, d. split; [exact I|]. split; [left; reflexivity|exact H]. }
  rewrite IH. split.
  - intros [[I D]|(a & b & I & J & H)]; [left; split; [right; exact I|exact D]|right; exists a, b; split; [exact I|split; [right; exact J|exact H]]].
  - intros [[[-> |I] D]|(a & b & I & [-> |J] & H)].
    + exfalso. rewrite str_eqb_refl, andb_true_r in E1. apply negb_false_iff in E1. apply dotted_dec in E1. exact (D E1).
    + left. split; assumption.
    + exfalso. assert (X : two_suffixes name b all = true) by (apply two_iff; exists a; split; assumption). congruence.
    + right. exists a, b. split; [exact I|split; assumption].
Qed.
Lemma candidate_dec l n : (match n with c :: _ => c =?c c_dot | [] => false end && negb (has c_slash n) = false /\ rejected l n l = false) <-> candidate l n.
Proof.
  unfold candidate. split.
  - intros [A B]. split; [|split].
    + intros D. apply dotted_dec in D. rewrite D in A. cbn [andb] in A. apply negb_false_iff in A. apply has_in. exact A.
    + intros X. assert (R : rejected l n l = true) by (apply rejected_iff; left; exact X). congruence.
    + intros (a & b & I & J & H). assert (R : rejected l n l = true) by (apply rejected_iff; right; exists a, b; auto). congruence.
  - intros (A & B & C). split.
    + destruct (match n with c :: _ => c =?c c_dot | [] => false end) eqn:D; [|reflexivity]. apply dotted_dec in D. apply A in D. apply has_in in D. rewrite D. reflexivity.
    + destruct (rejected l n l) eqn:R; [|reflexivity]. exfalso. apply rejected_iff in R. destruct R as [R|(a & b & I & J & H)]; [exact (B R)|]. apply C. exists a, b. auto.
Qed.
Lemma choose_some l ts n : choose l ts = Some n <-> first_candidate l ts n.
Proof.
  induction ts as [|m ts IH]; cbn [choose].
  { split; [discriminate|]. intros (b & a & E & _). destruct b; discriminate. }
  destruct (has c_percent m) eqn:HP.
  { split; [discriminate|]. apply has_in in HP. intros (b & a & E & NP & _ & F). exfalso. destruct b as [|x b]; cbn [app] in E; injection E as -> E; [exact (NP HP)|]. inversion F as [|? ? [Q _]]; subst. exact (Q HP). }
  assert (NP : ~ In c_percent m) by (intros I; apply has_in in I; congruence).
  assert (SKIP : ~ candidate l m -> (choose l ts = Some n <-> first_candidate l (m :: ts) n)).
  { intros NC. rewrite IH. split.
    - intros (b & a & -> & A & B & F). exists (m :: b), a. split; [reflexivity|]. split; [exact A|]. split; [exact B|]. constructor; [split; assumption|exact F].
    - intros (b & a & E & A & B & F). destruct b as [|x b]; cbn [app] in E; injection E as -> E; [contradiction|]. exists b, a. split; [exact E|]. split; [exact A|]. split; [exact B|]. inversion F; assumption. }
  pose proof (candidate_dec l m) as CD.
  destruct (match m with c :: _ => c =?c c_dot | [] => false end && negb (has c_slash m)) eqn:E1; [apply SKIP; intros X; apply CD in X; destruct X; congruence|].
  destruct (rejected l m l) eqn:E2; [apply SKIP; intros X; apply CD in X; destruct X; congruence|].
  assert (C : candidate l m) by (apply CD; auto). split.
  - intros X. injection X as <-. exists [], ts. split; [reflexivity|]. split; [exact NP|]. split; [exact C|constructor].
  - intros (b & a & E & A & B & F). destruct b as [|x b]; cbn [app] in E; injection E as -> E; [reflexivity|]. inversion F as [|? ? [_ Q]]; subst. contradiction.
Qed.
Lemma choose_none l ts : choose l ts = None <-> ~ provides l ts.
Proof.
  split.
  - intros H (n & F). apply choose_some in F. congruence.
  - intros H. destruct (choose l ts) as [n|] eqn:E; [|reflexivity]. exfalso. apply H. exists n. apply choose_some. exact E.
Qed.

Lemma define_find e n v o r s m : m <> n -> set_find m (g_set (define e n v o r s)) = set_find m (g_set s).
Proof.
  intros N. unfold define, define_in_set. cbn [g_set]. destruct (set_find n (g_set s)); cbn [fst]; apply find_put_other; exact N.
Qed.
Lemma silent_step e ev s : silent ev -> g_alive s = true -> (forall ts, ev <> Rule_line true ts) ->
  exists s', step e ev s = Some s' /\ g_alive s' = true /\ set_find n_goal (g_set s') = set_find n_goal (g_set s) /\ g_suffixes s' = suffixes_after (g_suffixes s) [ev].
Proof.
  intros SI AL NR. destruct ev as [sets ts|l|n v o r|n o]; cbn [step silent] in *.
  - destruct sets; [exfalso; exact (NR ts eq_refl)|]. exists s. auto.
  - eexists. split; [reflexivity|]. auto.
  - eexists. split; [reflexivity|]. cbn [define g_alive g_suffixes]. split; [exact AL|]. split; [apply define_find; congruence|reflexivity].
  - eexists. split; [reflexivity|]. cbn [g_alive g_set g_suffixes]. assert (E : str_eqb n n_goal = false) by (destruct (str_eqb n n_goal) eqn:E; [apply str_eqb_eq in E; congruence|reflexivity]). rewrite E. cbn [andb negb]. rewrite AL.
    split; [reflexivity|]. split; [|reflexivity]. unfold undefine_in_set. destruct (set_find n (g_set s)) as [v|]; [|reflexivity].
    match goal with |- context [if ?b then _ else _] => destruct b end; [apply find_remove_other|apply find_put_other]; congruence.
Qed.
Definition holds (s : state) (v : var) : Prop := g_alive s = true /\ set_find n_goal (g_set s) = Some v.
Lemma kept e evs : Forall silent evs -> forall s v, holds s v -> v_value v <> [] -> exists s', run e evs s = Some s' /\ holds s' v.
Proof.
  induction 1 as [|ev evs SI F IH]; intros s v [AL SF] NE; cbn [run]; [exists s; split; [reflexivity|split; assumption]|].
  assert (D : (exists ts, ev = Rule_line true ts) \/ forall ts, ev <> Rule_line true ts) by (destruct ev as [[] ts| | |]; [left; exists ts; reflexivity|right; discriminate..]).
  destruct D as [(ts & ->)|NR].
  - cbn [step]. unfold value. rewrite AL, SF. destruct (v_value v) eqn:V; [congruence|]. apply IH; [split; assumption|congruence].
  - destruct (silent_step e ev s SI AL NR) as (s' & -> & AL' & SF' & _). apply IH; [split; [assumption|congruence]|exact NE].
Qed.
Lemma define_goal e s v n : holds s v -> onum (upgrade e (v_origin v)) <= onum o_file -> exists v', holds (define e n_goal n o_file false s) v' /\ v_value v' = n /\ v_recursive v' = false.
Proof.
  intros [AL SF] O. unfold define, define_in_set. rewrite SF. change (upgrade e o_file) with (if e && false then o_env_override else o_file). rewrite andb_false_r. apply Nat.leb_le in O. rewrite O. cbn [fst].
  eexists. split; [split; [exact AL|cbn [g_set]; apply find_put_same]|]. split; reflexivity.
Qed.
Lemma suffixes_app l a b : suffixes_after l (a ++ b) = suffixes_after (suffixes_after l a) b.
Proof. revert l. induction a as [|ev a IH]; intros l; [reflexivity|]. destruct ev; cbn [app suffixes_after]; apply IH. Qed.
Lemma first_cons l ev evs n : (forall ts, ev = Rule_line true ts -> ~ provides l ts) -> (first_rule l (ev :: evs) n <-> first_rule (suffixes_after l [ev]) evs n).
Proof.
  intros NP. assert (SA : forall a, suffixes_after l (ev :: a) = suffixes_after (suffixes_after l [ev]) a) by (intros a; change (ev :: a) with ([ev] ++ a); apply suffixes_app). split.
  - intros (e1 & ts & e2 & E & F & N). destruct e1 as [|x e1]; cbn [app] in E; injection E as -> E.
    + exfalso. apply (NP ts eq_refl). exists n. exact F.
    + exists e1, ts, e2. split; [exact E|]. split; [rewrite <- SA; exact F|]. intros a ts' b E'. rewrite <- SA. apply (N (x :: a) ts' b). rewrite E'. reflexivity.
  - intros (e1 & ts & e2 & -> & F & N). exists (ev :: e1), ts, e2. split; [reflexivity|]. split; [rewrite SA; exact F|].
    intros a ts' b E. destruct a as [|x a]; cbn [app] in E; injection E as -> E; [exact (NP ts' eq_refl)|]. rewrite SA. exact (N a ts' b E).
Qed.
Lemma none_cons l ev evs : no_rule l (ev :: evs) <-> (forall ts, ev = Rule_line true ts -> ~ provides l ts) /\ no_rule (suffixes_after l [ev]) evs.
Proof.
  assert (SA : forall a, suffixes_after l (ev :: a) = suffixes_after (suffixes_after l [ev]) a) by (intros a; change (ev :: a) with ([ev] ++ a); apply suffixes_app). split.
  - intros N. split; [intros ts ->; exact (N [] ts evs eq_refl)|]. intros a ts b E. rewrite <- SA. apply (N (ev :: a) ts b). rewrite E. reflexivity.
  - intros [A B] a ts b E. destruct a as [|x a]; cbn [app] in E; injection E as -> E; [exact (A ts eq_refl)|]. rewrite SA. exact (B a ts b E).
Qed.
(** From an empty value that a makefile may set. *)
Lemma search e evs : Forall silent evs -> forall s v, holds s v -> v_value v = [] -> onum (upgrade e (v_origin v)) <= onum o_file ->
  exists s' v', run e evs s = Some s' /\ holds s' v' /\
    ((forall n, n <> [] -> first_rule (g_suffixes s) evs n -> v_value v' = n /\ v_recursive v' = false) /\ (no_rule (g_suffixes s) evs -> v' = v)).
Proof.
  induction 1 as [|ev evs SI F IH]; intros s v [AL SF] EV OR; cbn [run].
  { exists s, v. split; [reflexivity|]. split; [split; assumption|]. split; [|reflexivity]. intros n _ (e1 & ts & e2 & E & _). destruct e1; discriminate. }
  assert (D : (exists ts, ev = Rule_line true ts) \/ forall ts, ev <> Rule_line true ts) by (destruct ev as [[] ts| | |]; [left; exists ts; reflexivity|right; discriminate..]).
  destruct D as [(ts & ->)|NR].
  - cbn [step]. unfold value. rewrite AL, SF, EV. destruct (choose (g_suffixes s) ts) as [n|] eqn:CH.
    + destruct (define_goal e s v n (conj AL SF) OR) as (v' & HV & V1 & V2).
      assert (FC : first_candidate (g_suffixes s) ts n) by (apply choose_some; exact CH).
      assert (FR : forall m, first_rule (g_suffixes s) (Rule_line true ts :: evs) m -> m = n).
      { intros m (e1 & ts' & e2 & E & FC' & N). destruct e1 as [|x e1]; cbn [app] in E; [injection E as <- E; apply choose_some in FC'; cbn [suffixes_after] in FC'; congruence|].
        injection E as <- E. exfalso. apply (N [] ts e1 eq_refl). exists n. exact FC. }
      destruct n as [|c n].
      * (* an empty name is not chosen for good *)
        destruct HV as [AL' SF'].
        destruct (IH (define e n_goal [] o_file false s) v' (conj AL' SF') V1) as (s' & v'' & R & HV' & _ & _).
        { unfold define, define_in_set in SF'. rewrite SF in SF'. change (upgrade e o_file) with (if e && false then o_env_override else o_file) in SF'. rewrite andb_false_r in SF'. apply Nat.leb_le in OR. rewrite OR in SF'. cbn [fst g_set] in SF'. rewrite find_put_same in SF'. injection SF' as <-. cbn [v_origin]. unfold upgrade. cbn. rewrite andb_false_r. cbn. lia. }
        exists s', v''. split; [exact R|]. split; [exact HV'|]. split; [intros m NE FR'; apply FR in FR'; congruence|].
        intros N. exfalso. apply (N [] ts evs eq_refl). exists []. exact FC.
      * destruct (kept e evs F _ v' HV ltac:(congruence)) as (s' & R & HV'). exists s', v'. split; [exact R|]. split; [exact HV'|]. split; [intros m _ FR'; apply FR in FR'; subst m; auto|].
        intros N. exfalso. apply (N [] ts evs eq_refl). exists (c :: n). exact FC.
    + apply choose_none in CH. destruct (IH s v (conj AL SF) EV OR) as (s' & v' & R & HV & A & B). exists s', v'. split; [exact R|]. split; [exact HV|].
      assert (NP : forall ts', Rule_line true ts = Rule_line true ts' -> ~ provides (g_suffixes s) ts') by (intros ts' E; injection E as <-; exact CH). split.
      * intros n NE FR. apply (A n NE). exact (proj1 (first_cons _ _ _ _ NP) FR).
      * intros N. apply B. apply none_cons in N. exact (proj2 N).
  - destruct (silent_step e ev s SI AL NR) as (s1 & -> & AL' & SF' & SU). destruct (IH s1 v (conj AL' (eq_trans SF' SF)) EV OR) as (s' & v' & R & HV & A & B). exists s', v'. split; [exact R|]. split; [exact HV|].
    assert (NP : forall ts', ev = Rule_line true ts' -> ~ provides (g_suffixes s) ts') by (intros ts' E; exfalso; exact (NR ts' E)). rewrite SU in A, B. split.
    * intros n NE FR. apply (A n NE). exact (proj1 (first_cons _ _ _ _ NP) FR).
    * intros N. apply B. apply none_cons in N. exact (proj2 N).
Qed.
