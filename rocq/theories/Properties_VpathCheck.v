(** The tests that W_Vpath computes follow from the theorems of Properties_Vpath. *)
From Coq Require Import NArith Lia.
From Verif Require Import Base S_Quote S_Text S_Vpath M_Vpath P_Vpath2 Properties_Vpath S_VpathCheck W_Random W_Vpath.
Open Scope list_scope.
Open Scope nat_scope.

Lemma str_refl (x : str) : str_eqb x x = true. Proof. apply str_eqb_eq. reflexivity. Qed.
Lemma b_sep_iff c : b_sep c = true <-> sep c.
Proof. unfold b_sep, sep. rewrite !orb_true_iff, !Ascii.eqb_eq. tauto. Qed.
Lemma cut_pieces_ok : forall s cur, (forall c, In c cur -> ~ sep c) -> pieces (cur ++ s) (cut_pieces cur s).
Proof.
  induction s as [|c s IH]; intros cur N; cbn [cut_pieces].
  - rewrite app_nil_r. destruct cur as [|x cur]; [constructor|]. apply pc_last; [discriminate|exact N].
  - destruct (b_sep c) eqn:B.
    + apply b_sep_iff in B. destruct cur as [|x cur]; [apply pc_sep; [exact B|apply (IH []); intros ? []]|]. apply (pc_more (x :: cur) c s); [discriminate|exact N|exact B|apply (IH []); intros ? []].
    + change (c :: s) with ([c] ++ s). rewrite app_assoc. apply IH. intros d D. apply in_app_or in D. destruct D as [D|[<- | []]]; [exact (N d D)|]. rewrite <- b_sep_iff. congruence.
Qed.
Lemma cut_nonempty : forall s cur, ~ In [] (cut_pieces cur s).
Proof.
  induction s as [|c s IH]; intros cur; cbn [cut_pieces]; [destruct cur; cbn; intuition congruence|]. destruct (b_sep c); [|apply IH]. intros H. apply in_app_or in H. destruct H as [H|H]; [destruct cur; cbn in H; intuition congruence|exact (IH _ H)].
Qed.
Lemma one_dir_ok v : v <> [] -> dir_of v (one_dir v).
Proof.
  intros H. destruct (exists_last H) as (w & c & ->). unfold one_dir. destruct (str_eqb (w ++ [c]) [c_slash]) eqn:R; [apply str_eqb_eq in R; rewrite R; apply do_root|]. cbv zeta. rewrite last_last, removelast_last.
  destruct (c =?c c_slash) eqn:C.
  - apply eqc_true in C. subst c. destruct (str_eqb w [c_dot]) eqn:D; [apply str_eqb_eq in D; subst w; apply do_dot_slash|]. apply do_slash; [intros ->; discriminate R|intros ->; discriminate D].
  - destruct (str_eqb (w ++ [c]) [c_dot]) eqn:D; [apply str_eqb_eq in D; rewrite D; apply do_dot|]. apply do_plain; [intros ->; discriminate C|intros E; rewrite E in D; discriminate D].
Qed.
Lemma dirs_of_ok s : directories s (dirs_of s).
Proof.
  exists (cut_pieces [] s), (map one_dir (cut_pieces [] s)). split; [apply (cut_pieces_ok s []); intros ? []|]. split; [|unfold dirs_of; apply flat_map_concat_map].
  assert (N := cut_nonempty s []). revert N. generalize (cut_pieces [] s) as l. induction l as [|v l IH]; intros N; [constructor|]. constructor; [apply one_dir_ok; intros ->; apply N; left; reflexivity|apply IH; intros X; apply N; right; exact X].
Qed.
Lemma drop_spaces_ok s : exists a, s = a ++ drop_spaces s /\ all_space a /\ (forall c r, drop_spaces s = c :: r -> isspace c = false).
Proof.
  induction s as [|c s (a & E & A & N)]; [exists []; repeat split; [intros ? []|discriminate]|]. cbn [drop_spaces]. destruct (isspace c) eqn:C.
  - exists (c :: a). split; [cbn; congruence|]. split; [intros d [<- | D]; [exact C|exact (A d D)]|exact N].
  - exists []. repeat split; [intros ? []|]. intros d r X. injection X as <- _. exact C.
Qed.
Lemma first_word_ok : forall s w r, first_word s = (w, r) -> s = w ++ r /\ no_space w /\ starts_space r.
Proof.
  induction s as [|c s IH]; intros w r H; cbn [first_word] in H; [injection H as <- <-; repeat split; intros ? []|]. destruct (isspace c) eqn:C; [injection H as <- <-; repeat split; [intros ? []|exact C]|].
  destruct (first_word s) as [w' r'] eqn:F. injection H as <- <-. destruct (IH _ _ eq_refl) as (-> & A & B). repeat split; [|exact B]. intros d [<- | D]; [exact C|exact (A d D)].
Qed.
Lemma read_directive_ok t : reads t (read_directive t).
Proof.
  unfold read_directive. destruct (drop_spaces_ok t) as (a & E & A & N). destruct (first_word (drop_spaces t)) as [w r] eqn:F. destruct (first_word_ok _ _ _ F) as (E2 & W & S). destruct w as [|x w].
  - apply r_clear. cbn [app] in E2. destruct r as [|y r]; [rewrite E, E2, app_nil_r; exact A|]. exfalso. cbn in S. rewrite (N y r E2) in S. discriminate S.
  - destruct (drop_spaces_ok r) as (b & E3 & B & M). destruct (drop_spaces r) as [|y r'] eqn:D.
    + rewrite E, E2, E3, app_nil_r. apply r_remove; [exact A|discriminate|exact W|exact B].
    + rewrite E, E2, E3. apply r_add; [exact A|discriminate|exact W| |exact B|discriminate| |apply dirs_of_ok].
      * intros ->. cbn [app] in E3. rewrite E3 in S. cbn in S. rewrite (M y r' eq_refl) in S. discriminate S.
      * cbn. rewrite (M y r' eq_refl). discriminate.
Qed.
Lemma reads_map texts : Forall2 reads texts (map read_directive texts).
Proof. induction texts; constructor; [apply read_directive_ok|assumption]. Qed.
Lemma pat_eqb_iff a b : pat_eqb a b = true <-> a = b.
Proof.
  destruct a as [x o], b as [y q]. unfold pat_eqb. cbn [fst snd]. destruct (str_eqb x y) eqn:E.
  - apply str_eqb_eq in E. subst y. destruct o as [u|], q as [v|]; [rewrite str_eqb_eq|..]; split; congruence.
  - split; [discriminate|]. intros K. injection K as -> _. rewrite str_refl in E. discriminate.
Qed.
Lemma b_cancels_iff p d : b_cancels p d = true <-> cancels d p.
Proof. destruct d; cbn; [tauto|apply pat_eqb_iff|split; [discriminate|intros []]]. Qed.
Lemma force_ok ds : in_force ds (force ds).
Proof.
  induction ds as [|d ds IH]; [constructor|]. destruct d as [|q|p es]; cbn [force]; [apply if_other; [discriminate|exact IH]|apply if_other; [discriminate|exact IH]|].
  destruct es as [|e es]; [apply if_gone; [left; reflexivity|exact IH]|]. destruct (existsb (b_cancels p) ds) eqn:X.
  - apply if_gone; [right|exact IH]. apply existsb_exists in X. destruct X as (d & D & C). exists d. split; [exact D|apply b_cancels_iff; exact C].
  - apply if_add; [discriminate| |exact IH]. intros d D C. apply b_cancels_iff in C. assert (existsb (b_cancels p) ds = true) by (apply existsb_exists; eauto). congruence.
Qed.
Lemma prefix_of_iff : forall p s, prefix_of p s = true <-> exists r, s = p ++ r.
Proof.
  induction p as [|a p IH]; intros s; cbn [prefix_of]; [split; [intros _; exists s; reflexivity|auto]|]. destruct s as [|b s]; [split; [discriminate|intros (r & E); discriminate E]|]. rewrite andb_true_iff, Ascii.eqb_eq, IH. split.
  - intros (-> & r & ->). exists r. reflexivity.
  - intros (r & E). cbn [app] in E. injection E as -> E. split; [reflexivity|eauto].
Qed.
Lemma b_match_iff p w : b_match p w = true <-> exists stem, stem_of p w stem.
Proof.
  destruct p as [pre [post|]]; cbn [b_match].
  - rewrite !andb_true_iff, Nat.leb_le, prefix_of_iff, str_eqb_eq. split.
    + intros ((L & (r & ->)) & E). rewrite app_length in *. exists (firstn (length r - length post) r).
      assert (R : r = firstn (length r - length post) r ++ post). { rewrite skipn_app in E. replace (length pre + length r - length post - length pre) with (length r - length post) in E by lia. rewrite skipn_all2 in E by lia. cbn [app] in E. rewrite <- E at 2. rewrite firstn_skipn. reflexivity. }
      rewrite R at 1. constructor.
    + intros (stem & H). inversion H; subst. rewrite !app_length. split; [split; [lia|eauto]|]. rewrite app_assoc, skipn_app, skipn_all2 by (rewrite app_length; lia). rewrite app_length. replace (length pre + (length stem + length post) - length post - (length pre + length stem)) with 0 by lia. reflexivity.
  - rewrite str_eqb_eq. split; [intros ->; exists []; constructor|intros (stem & H); inversion H; reflexivity].
Qed.
Lemma number_nth {A} : forall (l : list A) k i a, In (i, a) (number_from k l) <-> k <= i /\ nth_error l (i - k) = Some a.
Proof.
  induction l as [|x l IH]; intros k i a; cbn [number_from In]; [split; [intros []|intros (_ & E); destruct (i - k); discriminate E]|]. rewrite IH. split.
  - intros [E|(L & E)]; [injection E as <- <-; split; [lia|rewrite Nat.sub_diag; reflexivity]|]. split; [lia|]. replace (i - k) with (S (i - S k)) by lia. exact E.
  - intros (L & E). destruct (Nat.eq_dec i k) as [-> | N]; [left; rewrite Nat.sub_diag in E; injection E as ->; reflexivity|]. right. split; [lia|]. replace (i - k) with (S (i - S k)) in E by lia. exact E.
Qed.
Lemma number_nth0 {A} (l : list A) i a : In (i, a) (number_from 0 l) <-> nth_error l i = Some a.
Proof. rewrite number_nth, Nat.sub_0_r. split; [tauto|intros H; split; [lia|exact H]]. Qed.
Lemma places_iff L G file vi pi d : In (vi, pi, d) (places L G file) <-> place L G file vi pi d.
Proof.
  unfold places. rewrite in_app_iff. split.
  - intros [H|H].
    + apply in_flat_map in H. destruct H as ([i [p ds]] & I & H). cbn [fst snd] in H. destruct (b_match p file) eqn:B; [|contradiction]. apply in_map_iff in H. destruct H as ([k e] & E & K). cbn [fst snd] in E. injection E as <- <- <-.
      apply number_nth0 in I. apply number_nth0 in K. apply b_match_iff in B. destruct B as (stem & B). eapply pl_list; eassumption.
    + apply in_map_iff in H. destruct H as ([k e] & E & K). cbn [fst snd] in E. injection E as <- <- <-. apply number_nth0 in K. apply pl_general. exact K.
  - intros H. inversion H as [i p ds k e stem N1 S N2|k e N]; subst.
    + left. apply in_flat_map. exists (vi, (p, ds)). split; [apply number_nth0; exact N1|]. cbn [fst snd]. rewrite (proj2 (b_match_iff p file)) by eauto. apply in_map_iff. exists (pi, d). split; [reflexivity|apply number_nth0; exact N2].
    + right. apply in_map_iff. exists (pi, d). split; [reflexivity|apply number_nth0; exact N].
Qed.
Lemma at_last_ok : forall s, match at_last_slash s with Some (a, b) => s = a ++ c_slash :: b /\ ~ In c_slash b | None => ~ In c_slash s end.
Proof.
  induction s as [|c s IH]; cbn [at_last_slash]; [intros []|]. destruct (at_last_slash s) as [[a b]|]; [destruct IH as (-> & N); auto|]. destruct (c =?c c_slash) eqn:C; [apply eqc_true in C; subst c; auto|]. intros [X|X]; [subst c; discriminate C|exact (IH X)].
Qed.
Lemma split_unique : forall a b a' b' : str, a ++ c_slash :: b = a' ++ c_slash :: b' -> ~ In c_slash b -> ~ In c_slash b' -> a = a' /\ b = b'.
Proof.
  induction a as [|x a IH]; intros b [|x' a'] b' E N N'; cbn [app] in E.
  - injection E as ->. auto.
  - injection E as <- E. subst b. destruct N. apply in_or_app. right. left. reflexivity.
  - injection E as -> E. subst b'. destruct N'. apply in_or_app. right. left. reflexivity.
  - injection E as <- E. destruct (IH _ _ _ E N N') as (-> & ->). auto.
Qed.
Section Accept.
  Variable lookup_file : str -> option (bool * option nat).
  Variable listed : str -> str -> bool.
  Variable stat : str -> option nat.
  Lemma acceptance_iff file d tm : acceptance lookup_file listed stat file d = Some tm <-> accepted nat lookup_file listed stat file d tm.
  Proof.
    unfold acceptance. cbv zeta. set (name := d ++ c_slash :: file). set (isT := match lookup_file file with Some (true, _) => true | _ => false end).
    assert (TT : isT = true <-> target nat lookup_file file).
    { unfold isT, target. destruct (lookup_file file) as [[[|] m]|]; split; try discriminate; eauto; intros (m' & E); discriminate E. }
    set (below := match at_last_slash file with Some (x, f) => (d ++ c_slash :: x, f) | None => (d, file) end).
    assert (SB : forall dir base, split_below d file dir base <-> below = (dir, base)).
    { intros dir base. unfold below. pose proof (at_last_ok file) as AL. destruct (at_last_slash file) as [[x f]|]; [destruct AL as (E & N)|]; split; intros H.
      - inversion H as [f' N' E1 E2 E3|x' f' N' E1 E2 E3]; subst.
        + exfalso. apply N'. apply in_or_app. right. left. reflexivity.
        + destruct (split_unique _ _ _ _ E1 N' N) as (<- & <-). reflexivity.
      - injection H as <- <-. rewrite E. apply sb_dir. exact N.
      - inversion H as [f' N' E1 E2 E3|x' f' N' E1 E2 E3]; subst; [reflexivity|]. exfalso. apply AL. apply in_or_app. right. left. reflexivity.
      - injection H as <- <-. apply sb_plain. exact AL. }
    assert (EX : (forall time, ~ mentioned nat lookup_file file name time) -> ((let (dir, base) := below in if listed dir base then option_map Some (stat name) else None) = Some tm <-> accepted nat lookup_file listed stat file d tm)).
    { intros NM. destruct below as [dir base] eqn:B. split.
      - destruct (listed dir base) eqn:LI; [|discriminate]. destruct (stat name) as [t|] eqn:ST; [|discriminate]. intros E. cbn [option_map] in E. injection E as <-. eapply acc_exists; [exact NM|apply SB; reflexivity|exact LI|exact ST].
      - intros H. inversion H as [time M|dir' base' t NM' S LI ST]; subst; [destruct (NM _ M)|]. apply SB in S. injection S as -> ->. rewrite LI. fold name in ST. rewrite ST. reflexivity. }
    destruct (lookup_file name) as [[t time]|] eqn:LN.
    - destruct (t || negb isT) eqn:T.
      + assert (M : mentioned nat lookup_file file name time). { exists t. split; [exact LN|]. apply orb_true_iff in T. destruct T as [T|T]; [left; exact T|right]. rewrite <- TT. apply negb_true_iff in T. congruence. }
        split; [intros E; injection E as <-; apply acc_mentioned; exact M|]. intros H. inversion H as [time' (t' & M' & _)|dir' base' t' NM' S LI ST]; subst; [fold name in M'; congruence|]. destruct (NM' _ M).
      + apply orb_false_iff in T. destruct T as (-> & T). apply negb_false_iff in T. apply EX. intros time' (t' & M & K). fold name in M. rewrite LN in M. injection M as <- <-. destruct K as [K|K]; [discriminate K|]. apply K. apply TT. exact T.
    - apply EX. intros time' (t' & M & K). congruence.
  Qed.
  Lemma acceptance_none file d : acceptance lookup_file listed stat file d = None <-> forall tm, ~ accepted nat lookup_file listed stat file d tm.
  Proof.
    split.
    - intros E tm A. apply acceptance_iff in A. congruence.
    - intros H. destruct (acceptance lookup_file listed stat file d) as [tm|] eqn:E; [|reflexivity]. apply acceptance_iff in E. destruct (H _ E).
  Qed.
  Lemma otime_refl a : otime_eqb a a = true. Proof. destruct a; [apply Nat.eqb_refl|reflexivity]. Qed.
  Lemma no_double_ok : forall s, no_double s = true -> no_double_slash s.
  Proof.
    intros s H a. revert s H. induction a as [|x a IH]; intros s H b E; subst s; cbn [app no_double] in H; apply andb_true_iff in H; destruct H as (H1 & H2); [discriminate H1|]. exact (IH _ H2 b eq_refl).
  Qed.
  Lemma no_end_ok ds : no_end ds = true -> no_end_slash ds.
  Proof. intros H d D v E. unfold no_end in H. rewrite forallb_forall in H. specialize (H d D). rewrite E, last_last in H. discriminate H. Qed.
  Lemma fit_ok L G : fit L G = true -> no_quoted_percent L /\ (forall p es, In (p, es) L -> no_end_slash es) /\ no_end_slash G.
  Proof.
    unfold fit. intros H. apply andb_true_iff in H. destruct H as (H & HG). rewrite forallb_forall in H. split; [|split; [|apply no_end_ok; exact HG]].
    - intros x es I P. specialize (H _ I). cbn [fst snd] in H. apply andb_true_iff in H. destruct H as (H & _). apply negb_true_iff in H. assert (existsb (fun c => c =?c c_percent) x = true) by (apply existsb_exists; exists c_percent; split; [exact P|apply eqc_refl]). congruence.
    - intros p es I. specialize (H _ I). cbn [fst snd] in H. apply andb_true_iff in H. apply no_end_ok. tauto.
  Qed.
  Lemma absolute_not file : absolute file = false -> forall y, file <> c_slash :: y.
  Proof. intros H y ->. discriminate H. Qed.

  (** C40.  The tests of searches must succeed. *)
  Theorem C40_check : forall texts value gvalue file, t_vpath lookup_file listed stat texts value gvalue file = true.
  Proof.
    intros texts value gvalue file. unfold t_vpath. cbv zeta. destruct (absolute file) eqn:AB.
    { destruct file as [|c y]; [discriminate AB|]. apply eqc_true in AB. subst c. rewrite C40_absolute_name. reflexivity. }
    destruct (fit _ _ && no_double file) eqn:F; [|reflexivity]. apply andb_true_iff in F. destruct F as (F & ND). destruct (fit_ok _ _ F) as (N1 & N2 & N3).
    pose proof (C40_first_place nat lookup_file listed stat texts _ _ value gvalue _ file (reads_map texts) (force_ok _) (dirs_of_ok value) N1 N2 N3 (no_double_ok _ ND) (absolute_not _ AB)) as R.
    destruct (vpath_search _ _ _ _ _ file) as [|name tm vi pi|]; [| |contradiction].
    - apply forallb_forall. intros [[vi pi] d] I. cbn [fst snd]. apply places_iff in I. rewrite (proj2 (acceptance_none file d)) by (intros tm; exact (R _ _ _ tm I)). reflexivity.
    - destruct R as (d & P & -> & A & E). apply andb_true_iff. split.
      + apply existsb_exists. exists (vi, pi, d). split; [apply places_iff; exact P|]. cbn [fst snd]. rewrite !Nat.eqb_refl, str_refl. apply acceptance_iff in A. rewrite A. cbn. apply otime_refl.
      + apply forallb_forall. intros [[vi' pi'] d'] I. cbn [fst snd]. destruct (_ || _) eqn:O; [|reflexivity]. apply places_iff in I. rewrite (proj2 (acceptance_none file d')); [reflexivity|]. apply (E _ _ _ I).
        apply orb_true_iff in O. destruct O as [O|O]; [left; apply Nat.ltb_lt; exact O|right]. apply andb_true_iff in O. destruct O as (O1 & O2). split; [apply Nat.eqb_eq; exact O1|apply Nat.ltb_lt; exact O2].
  Qed.
  Variable name_mtime : str -> option nat.
  Variable std : list str.
  Lemma hits_for_iff L G x c a e n tm : In (c, a, e, (n, tm)) (hits_for lookup_file listed stat name_mtime std L G x) <-> hit nat lookup_file listed stat name_mtime std L G x c a e n tm.
  Proof.
    unfold hits_for. rewrite !in_app_iff. split.
    - intros [H|[H|H]].
      + destruct (name_mtime x) as [t|] eqn:M; [|destruct H]. destruct H as [H|[]]. injection H as <- <- <- <- <-. apply h_here. exact M.
      + destruct (absolute x) eqn:AB; [destruct H|]. apply in_flat_map in H. destruct H as ([[vi pi] d] & P & H). cbn [fst snd] in H. destruct (acceptance _ _ _ x d) as [t|] eqn:A; [|destruct H]. destruct H as [H|[]]. injection H as <- <- <- <- <-. apply h_path; [apply places_iff; exact P|apply acceptance_iff; exact A|apply absolute_not; exact AB].
      + apply in_flat_map in H. destruct H as ([k d] & P & H). cbn [fst snd] in H. destruct (name_mtime _) as [t|] eqn:M; [|destruct H]. destruct H as [H|[]]. injection H as <- <- <- <- <-. apply h_std; [apply number_nth0; exact P|exact M].
    - intros H. inversion H as [t M|vi pi d time P A NA|k d t N M]; subst.
      + left. rewrite M. left. reflexivity.
      + right. left. destruct (absolute x) eqn:AB; [exfalso; destruct x as [|y x]; [discriminate AB|]; apply eqc_true in AB; subst y; exact (NA x eq_refl)|]. apply in_flat_map. exists (a, e, d). split; [apply places_iff; exact P|]. cbn [fst snd]. apply acceptance_iff in A. rewrite A. left. reflexivity.
      + right. right. apply in_flat_map. exists (a, d). split; [apply number_nth0; exact N|]. cbn [fst snd]. rewrite M. left. reflexivity.
  Qed.
  Lemma all_hits_iff L G lib pats c a e i n tm : In (c, a, e, i, (n, tm)) (all_hits lookup_file listed stat name_mtime std L G lib pats) <->
    exists p x, nth_error pats i = Some p /\ lib_name lib p x /\ hit nat lookup_file listed stat name_mtime std L G x c a e n tm.
  Proof.
    unfold all_hits. rewrite in_flat_map. split.
    - intros ([k p] & K & H). cbn [fst snd] in H. destruct (pattern_of p) as [pre [post|]] eqn:P; [|destruct H]. apply in_map_iff in H. destruct H as ([[[c' a'] e'] [n' tm']] & E & H). cbn [fst snd] in E. injection E as <- <- <- <- <- <-.
      exists p, (pre ++ lib ++ post). split; [apply number_nth0; exact K|]. split; [exists pre, post; auto|]. apply hits_for_iff. exact H.
    - intros (p & x & N & (pre & post & P & ->) & H). exists (i, p). split; [apply number_nth0; exact N|]. cbn [fst snd]. rewrite P. apply in_map_iff. exists (c, a, e, (n, tm)). split; [reflexivity|apply hits_for_iff; exact H].
  Qed.
  (** C49.  The tests of libraries must succeed. *)
  Theorem C49_check : forall uint_max texts value gvalue lib pats, t_library lookup_file listed stat name_mtime std uint_max texts value gvalue lib pats = true.
  Proof.
    intros uint_max texts value gvalue lib pats. unfold t_library. cbv zeta. destruct (fit _ _ && _ && _) eqn:F; [|reflexivity]. apply andb_true_iff in F. destruct F as (F & FP). apply andb_true_iff in F. destruct F as (F & FL). destruct (fit_ok _ _ F) as (N1 & N2 & N3). apply Nat.ltb_lt in FL.
    assert (X : forall p x, In p pats -> lib_name lib p x -> no_double_slash x).
    { intros p x I (pre & post & P & ->). rewrite forallb_forall in FP. specialize (FP p I). rewrite P in FP. apply no_double_ok. exact FP. }
    destruct (C49_earliest_library nat lookup_file listed stat texts _ _ value gvalue _ name_mtime uint_max std lib pats (reads_map texts) (force_ok _) (dirs_of_ok value) N1 N2 N3 FL X) as (r & -> & R).
    set (L := force (map read_directive texts)) in *. set (G := dirs_of value) in *. destruct r as [[n tm]|].
    - destruct R as (c & a & e & i & H & M). apply existsb_exists. exists (c, a, e, i, (n, tm)). split; [apply all_hits_iff; exact H|]. cbn [fst snd]. rewrite str_refl, otime_refl. cbn [andb]. apply forallb_forall. intros [[[[c' a'] e'] i'] [n' tm']] I. cbn [fst]. apply all_hits_iff in I. specialize (M _ _ _ _ _ _ I). unfold le4 in M. unfold b_le4.
      rewrite !orb_true_iff, !andb_true_iff, !orb_true_iff, !andb_true_iff, !orb_true_iff, !andb_true_iff, !Nat.ltb_lt, !Nat.eqb_eq, Nat.leb_le. exact M.
    - destruct (all_hits _ _ _ _ _ _ _ _ _) as [|[[[[c a] e] i] [n tm]] l] eqn:AH; [reflexivity|]. exfalso. apply (R c a e i n tm). apply all_hits_iff. fold L G. rewrite AH. left. reflexivity.
  Qed.
End Accept.
(** C40.  And those of GPATH. *)
Theorem C40_gpath_check : forall texts value gvalue file len, t_gpath texts value gvalue file len = true.
Proof.
  intros. unfold t_gpath. destruct (len <=? length file) eqn:L; [|reflexivity]. apply Nat.leb_le in L. apply eqb_true_iff. apply eq_true_iff_eq. rewrite (C40_gpath _ value gvalue _ file len (dirs_of_ok gvalue) L), existsb_exists. split.
  - intros H. exists (firstn len file). split; [exact H|apply str_refl].
  - intros (x & I & E). apply str_eqb_eq in E. subst x. exact I.
Qed.
Ltac drawn := repeat match goal with |- context [let '(_, _) := ?x in _] => destruct x end.
Lemma searches_follow l : searches_hold l = true. Proof. apply forallb_forall. intros s _. unfold one_search. drawn. apply C40_check. Qed.
Lemma quoted_follow l : quoted_hold l = true. Proof. apply forallb_forall. intros s _. unfold quoted_search. drawn. apply C40_check. Qed.
Lemma libraries_follow l : libraries_hold l = true. Proof. apply forallb_forall. intros s _. unfold one_library. drawn. apply C49_check. Qed.
Lemma stds_follow l : stds_hold l = true. Proof. apply forallb_forall. intros s _. unfold std_library. drawn. apply C49_check. Qed.
Lemma gpaths_follow l : gpaths_hold l = true. Proof. apply forallb_forall. intros s _. unfold one_gpath. drawn. apply C40_gpath_check. Qed.
Print Assumptions C40_check.
Print Assumptions C49_check.
Print Assumptions C40_gpath_check.
