From Verif Require Import Base M_Argv S_Argv.
Open Scope string_scope.
Open Scope list_scope.
Open Scope nat_scope.

Definition add (v : str) (x : str * str) : str * str := (v ++ fst x, snd x).
Lemma add_nil : forall x, add [] x = x. Proof. intros [a r]. reflexivity. Qed.
Lemma add_add : forall u v x, add u (add v x) = add (u ++ v) x.
Proof. intros u v [a r]. unfold add. cbn [fst snd]. rewrite app_assoc. reflexivity. Qed.
Lemma add_one : forall c (x : str * str), (let '(a, r) := x in (c :: a, r)) = add [c] x.
Proof. intros c [a r]. reflexivity. Qed.

Definition sqf (q : ascii) : bool := q =?c c_sq.
Definition scan_in (q : ascii) (bs : bool) (s : str) := scan_arg (sqf q) (negb (sqf q)) bs s.
Definition scan_out (s : str) := scan_arg false false false s.

Lemma in_step : forall q c s, quote_char q ->
  scan_in q false (c :: s) = if c =?c c_bslash then scan_in q true s else if c =?c q then scan_out s else add [c] (scan_in q false s).
Proof.
  intros q c s [-> | ->]; unfold scan_in, scan_out; cbn [sqf]; change (sqf c_sq) with true; change (sqf c_dq) with false; cbn [negb scan_arg];
    rewrite ?andb_false_r; cbn [andb]; destruct (c =?c c_bslash); try reflexivity; rewrite <- add_one; reflexivity.
Qed.
Lemma in_step_bs : forall q c s, quote_char q -> scan_in q true (c :: s) = add [c] (scan_in q false s).
Proof.
  intros q c s [-> | ->]; unfold scan_in; change (sqf c_sq) with true; change (sqf c_dq) with false; cbn [negb scan_arg];
    rewrite ?andb_false_r; cbn [andb]; rewrite <- add_one; reflexivity.
Qed.
Lemma scan_nil : forall a b c, scan_arg a b c [] = ([], []). Proof. reflexivity. Qed.
Lemma out_step : forall c s, scan_out (c :: s) =
  if isblank c then ([], c :: s)
  else if c =?c c_bslash then scan_arg false false true s
  else if (c =?c c_sq) || (c =?c c_dq) then scan_in c false s else add [c] (scan_out s).
Proof.
  intros c s. unfold scan_out. cbn [scan_arg negb andb]. rewrite !andb_true_r. destruct (isblank c); [reflexivity|].
  destruct (c =?c c_bslash); [reflexivity|]. destruct (c =?c c_sq) eqn:E1.
  - cbn [orb]. apply Ascii.eqb_eq in E1. subst c. reflexivity.
  - cbn [orb]. destruct (c =?c c_dq) eqn:E2; [apply Ascii.eqb_eq in E2; subst c; reflexivity|]. rewrite <- add_one. reflexivity.
Qed.
Lemma out_step_bs : forall c s, scan_arg false false true (c :: s) = add [c] (scan_out s).
Proof. intros c s. cbn [scan_arg negb]. rewrite andb_false_r. rewrite <- add_one. reflexivity. Qed.

Lemma quote_cases : forall c, ((c =?c c_sq) || (c =?c c_dq)) = true <-> quote_char c.
Proof. intros c. rewrite orb_true_iff, !Ascii.eqb_eq. reflexivity. Qed.
Lemma quote_blank : forall q, quote_char q -> isblank q = false. Proof. intros q [-> | ->]; reflexivity. Qed.
Lemma quote_bs : forall q, quote_char q -> (q =?c c_bslash) = false. Proof. intros q [-> | ->]; reflexivity. Qed.

(** ** The scanner accepts the grammar *)
Lemma inside_scan : forall q i u, quote_char q -> inside q i u -> forall s, scan_in q false (i ++ s) = add u (scan_in q false s).
Proof.
  intros q i u Hq H. induction H as [|c t v H1 H2 H IH|c t v H IH]; intros s; cbn [app].
  - rewrite add_nil. reflexivity.
  - rewrite in_step by exact Hq. rewrite (proj2 (Ascii.eqb_neq _ _) H2), (proj2 (Ascii.eqb_neq _ _) H1), IH, add_add. reflexivity.
  - rewrite in_step by exact Hq. change (c_bslash =?c c_bslash) with true. cbv iota. rewrite in_step_bs by exact Hq. rewrite IH, add_add. reflexivity.
Qed.
Lemma word_scan : forall t v, aword t v -> forall s, scan_out (t ++ s) = add v (scan_out s).
Proof.
  intros t v H. induction H as [|c t v H1 H2 H3 H IH|c t v H IH|q i u t v Hq Hi H IH]; intros s; cbn [app].
  - rewrite add_nil. reflexivity.
  - rewrite out_step, H3, (proj2 (Ascii.eqb_neq _ _) H2).
    destruct ((c =?c c_sq) || (c =?c c_dq)) eqn:E; [apply quote_cases in E; contradiction|]. rewrite IH, add_add. reflexivity.
  - rewrite out_step. change (isblank c_bslash) with false. change (c_bslash =?c c_bslash) with true. cbv iota. rewrite out_step_bs, IH, add_add. reflexivity.
  - rewrite out_step, (quote_blank q Hq), (quote_bs q Hq), (proj2 (quote_cases q) Hq). rewrite <- app_assoc. rewrite (inside_scan q i u Hq Hi).
    cbn [app]. rewrite in_step by exact Hq. rewrite (quote_bs q Hq), Ascii.eqb_refl, IH, add_add. reflexivity.
Qed.
Lemma in_nil_scan : forall q, scan_in q false [] = ([], []). Proof. reflexivity. Qed.
Lemma in_bs_scan : forall q, quote_char q -> scan_in q false [c_bslash] = ([], []).
Proof. intros q H. rewrite in_step by exact H. reflexivity. Qed.
Lemma cut_scan : forall t v, cut_short t v -> scan_out t = (v, []).
Proof.
  intros t v H. destruct H as [t v H|t v H|t v q i u H Hq Hi|t v q i u H Hq Hi].
  - pose proof (word_scan t v H []) as E. rewrite app_nil_r in E. rewrite E. unfold add. cbn. rewrite app_nil_r. reflexivity.
  - rewrite (word_scan t v H [c_bslash]). unfold add. cbn. rewrite app_nil_r. reflexivity.
  - rewrite (word_scan t v H). rewrite out_step, (quote_blank q Hq), (quote_bs q Hq), (proj2 (quote_cases q) Hq).
    pose proof (inside_scan q i u Hq Hi []) as E. rewrite app_nil_r, in_nil_scan in E. rewrite E. unfold add. cbn [fst snd]. rewrite app_nil_r. reflexivity.
  - rewrite (word_scan t v H). rewrite out_step, (quote_blank q Hq), (quote_bs q Hq), (proj2 (quote_cases q) Hq).
    rewrite (inside_scan q i u Hq Hi). rewrite in_bs_scan by exact Hq. unfold add. cbn [fst snd]. rewrite app_nil_r. reflexivity.
Qed.

Lemma skip_app : forall b s, blanks b -> skip_blanks (b ++ s) = skip_blanks s.
Proof. intros b s H. induction H as [|c b H _ IH]; [reflexivity|]. cbn [app skip_blanks]. rewrite H. exact IH. Qed.
Lemma skip_begins : forall s, begins_word s -> skip_blanks s = s.
Proof. intros s [c [t [-> H]]]. cbn [skip_blanks]. rewrite H. reflexivity. Qed.
Lemma begins_app : forall s t, begins_word s -> begins_word (s ++ t).
Proof. intros s t [c [u [-> H]]]. exists c, (u ++ t). auto. Qed.
Lemma blank_scan : forall b s, blanks b -> b <> [] -> scan_out (b ++ s) = ([], b ++ s).
Proof. intros b s H N. destruct H as [|c b H _]; [contradiction|]. cbn [app]. rewrite out_step, H. reflexivity. Qed.
Lemma skip_all : forall b, blanks b -> skip_blanks b = [].
Proof. intros b H. pose proof (skip_app b [] H) as E. rewrite app_nil_r in E. exact E. Qed.

Lemma aline_loop : forall s l, aline s l -> forall f, length s < f -> argv_loop f s = Some l.
Proof.
  intros s l H. induction H as [b H|b t v Hb Ht H|b t v b' Hb Ht H Hb'|b t v b' s l Hb Ht H Hb' Nb Hs Hl IH]; intros f Hf;
    (destruct f as [|f]; [lia|]); cbn [argv_loop]; fold (scan_out (skip_blanks b)).
  - rewrite skip_all by exact H. reflexivity.
  - rewrite skip_app by exact Hb. rewrite skip_begins by exact Ht. fold (scan_out t). rewrite (cut_scan t v H). reflexivity.
  - rewrite skip_app by exact Hb. rewrite skip_begins by (apply begins_app; exact Ht). fold (scan_out (t ++ b')). rewrite (word_scan t v H).
    destruct b' as [|c b'].
    + cbn. rewrite app_nil_r. reflexivity.
    + pose proof (blank_scan (c :: b') [] Hb' ltac:(discriminate)) as E. rewrite app_nil_r in E. rewrite E. unfold add. cbn [fst snd]. rewrite app_nil_r.
      rewrite skip_all by exact Hb'. reflexivity.
  - rewrite skip_app by exact Hb. rewrite skip_begins by (apply begins_app; exact Ht). fold (scan_out (t ++ b' ++ s)). rewrite (word_scan t v H).
    rewrite (blank_scan b' s Hb' Nb). unfold add. cbn [fst snd]. rewrite app_nil_r. rewrite skip_app by exact Hb'. rewrite (skip_begins s Hs).
    rewrite !app_length in Hf. destruct Hs as [c [u [-> Hc]]]. rewrite IH; [reflexivity|].
    destruct Ht as [c' [u' [-> _]]]. cbn [length] in *. lia.
Qed.

(** ** and nothing else *)
Lemma scan_in_inv : forall q, quote_char q -> forall n s, length s <= n -> forall v r, scan_in q false s = (v, r) ->
  (exists i u s' v', inside q i u /\ s = i ++ q :: s' /\ scan_out s' = (v', r) /\ v = u ++ v') \/
  (r = [] /\ (inside q s v \/ exists i, inside q i v /\ s = i ++ [c_bslash])).
Proof.
  intros q Hq. induction n as [|n IH]; intros s Hn v r H.
  - destruct s; [|cbn in Hn; lia]. rewrite in_nil_scan in H. inversion H; subst. right. split; [reflexivity|]. left. constructor.
  - destruct s as [|c s].
    + rewrite in_nil_scan in H. inversion H; subst. right. split; [reflexivity|]. left. constructor.
    + rewrite in_step in H by exact Hq. cbn [length] in Hn. destruct (c =?c c_bslash) eqn:E1.
      * apply Ascii.eqb_eq in E1. subst c. destruct s as [|c s].
        -- unfold scan_in in H. rewrite scan_nil in H. inversion H; subst. right. split; [reflexivity|]. right. exists []. split; [constructor|reflexivity].
        -- rewrite in_step_bs in H by exact Hq. destruct (scan_in q false s) as [v1 r1] eqn:S. unfold add in H. cbn [fst snd app] in H. inversion H; subst. cbn [length] in Hn.
           destruct (IH s ltac:(lia) v1 r S) as [[i [u [s' [v' [A [B [C D]]]]]]]|[A [B|[i [B C]]]]].
           ++ left. exists (c_bslash :: c :: i), (c :: u), s', v'. split; [constructor; exact A|]. subst. auto.
           ++ right. split; [exact A|]. left. constructor. exact B.
           ++ right. split; [exact A|]. right. exists (c_bslash :: c :: i). split; [constructor; exact B|]. subst. reflexivity.
      * destruct (c =?c q) eqn:E2.
        -- apply Ascii.eqb_eq in E2. subst c. left. exists [], [], s, v. split; [constructor|]. auto.
        -- apply Ascii.eqb_neq in E1. apply Ascii.eqb_neq in E2.
           destruct (scan_in q false s) as [v1 r1] eqn:S. unfold add in H. cbn [fst snd app] in H. inversion H; subst.
           destruct (IH s ltac:(lia) v1 r S) as [[i [u [s' [v' [A [B [C D]]]]]]]|[A [B|[i [B C]]]]].
           ++ left. exists (c :: i), (c :: u), s', v'. split; [constructor; assumption|]. subst. auto.
           ++ right. split; [exact A|]. left. constructor; assumption.
           ++ right. split; [exact A|]. right. exists (c :: i). split; [constructor; assumption|]. subst. reflexivity.
Qed.

Lemma aword_app : forall t v t' v', aword t v -> aword t' v' -> aword (t ++ t') (v ++ v').
Proof.
  intros t v t' v' H H'. induction H as [|c t v H1 H2 H3 H IH|c t v H IH|q i u t v Hq Hi H IH]; cbn [app]; try (constructor; assumption); [exact H'|].
  rewrite <- app_assoc. cbn [app]. rewrite <- (app_assoc u). constructor; assumption.
Qed.
Lemma cut_app : forall t v t' v', aword t v -> cut_short t' v' -> cut_short (t ++ t') (v ++ v').
Proof.
  intros t v t' v' H H'. destruct H' as [t' v' K|t' v' K|t' v' q i u K Hq Hi|t' v' q i u K Hq Hi].
  - apply cs_word. apply aword_app; assumption.
  - rewrite app_assoc. apply cs_bslash. apply aword_app; assumption.
  - rewrite (app_assoc t), (app_assoc v). apply cs_quote; [apply aword_app|..]; assumption.
  - rewrite (app_assoc t), (app_assoc v). apply cs_quote_bslash; [apply aword_app|..]; assumption.
Qed.

Lemma scan_out_inv : forall n s, length s <= n -> forall v r, scan_out s = (v, r) ->
  (r = [] /\ cut_short s v) \/ (exists t c r', s = t ++ r /\ aword t v /\ r = c :: r' /\ isblank c = true).
Proof.
  induction n as [|n IH]; intros s Hn v r H.
  - destruct s; [|cbn in Hn; lia]. inversion H; subst. left. split; [reflexivity|]. apply cs_word. constructor.
  - destruct s as [|c s]; [inversion H; subst; left; split; [reflexivity|]; apply cs_word; constructor|].
    assert (PRE : forall p u s1 v1, aword p u -> c :: s = p ++ s1 -> length s1 <= n -> scan_out s1 = (v1, r) -> v = u ++ v1 ->
       (r = [] /\ cut_short (c :: s) v) \/ (exists t c0 r', c :: s = t ++ r /\ aword t v /\ r = c0 :: r' /\ isblank c0 = true)).
    { intros p u s1 v1 P1 P2 P3 P4 P5. rewrite P2, P5. destruct (IH s1 P3 v1 r P4) as [[A B]|[t [c0 [r' [A [B [C D]]]]]]].
      - left. split; [exact A|]. apply cut_app; assumption.
      - right. exists (p ++ t), c0, r'. split; [rewrite A, app_assoc; reflexivity|]. split; [apply aword_app; assumption|]. auto. }
    cbn [length] in Hn. rewrite out_step in H. destruct (isblank c) eqn:E0.
    + inversion H; subst. right. exists [], c, s. split; [reflexivity|]. split; [constructor|]. auto.
    + destruct (c =?c c_bslash) eqn:E1.
      * apply Ascii.eqb_eq in E1. subst c. destruct s as [|c s].
        -- inversion H; subst. left. split; [reflexivity|]. apply (cs_bslash []). constructor.
        -- rewrite out_step_bs in H. destruct (scan_out s) as [v1 r1] eqn:S. unfold add in H. cbn [fst snd app] in H. inversion H; subst. cbn [length] in Hn.
           apply (PRE [c_bslash; c] [c] s v1); [constructor; constructor|reflexivity|lia|exact S|reflexivity].
      * destruct ((c =?c c_sq) || (c =?c c_dq)) eqn:E2.
        -- apply quote_cases in E2. destruct (scan_in_inv c E2 (length s) s (le_n _) v r H) as [[i [u [s' [v' [A [B [C D]]]]]]]|[A [B|[i [B C]]]]].
           ++ apply (PRE (c :: i ++ [c]) u s' v').
              ** rewrite <- (app_nil_r u). apply w_quote; [exact E2|exact A|constructor].
              ** rewrite B. cbn [app]. rewrite <- app_assoc. reflexivity.
              ** rewrite B, app_length in Hn. cbn [length] in Hn. lia.
              ** exact C.
              ** exact D.
           ++ left. split; [exact A|]. apply (cs_quote [] []); [constructor|exact E2|exact B].
           ++ left. split; [exact A|]. rewrite C. apply (cs_quote_bslash [] []); [constructor|exact E2|exact B].
        -- destruct (scan_out s) as [v1 r1] eqn:S. unfold add in H. cbn [fst snd app] in H. inversion H; subst.
           apply (PRE [c] [c] s v1); [|reflexivity|lia|exact S|reflexivity].
           constructor; [intros K; apply quote_cases in K; congruence|apply Ascii.eqb_neq; exact E1|exact E0|constructor].
Qed.

Lemma skip_split : forall s, exists b, blanks b /\ s = b ++ skip_blanks s /\ (skip_blanks s = [] \/ begins_word (skip_blanks s)).
Proof.
  induction s as [|c s [b [H1 [H2 H3]]]]; [exists []; split; [constructor|]; auto|]. cbn [skip_blanks]. destruct (isblank c) eqn:E.
  - exists (c :: b). split; [constructor; assumption|]. split; [cbn [app]; f_equal; exact H2|exact H3].
  - exists []. split; [constructor|]. split; [reflexivity|]. right. exists c, s. auto.
Qed.
Lemma loop_aline : forall f s l, argv_loop f s = Some l -> aline s l.
Proof.
  induction f as [|f IH]; intros s l H; [discriminate|]. cbn [argv_loop] in H. destruct (skip_split s) as [b [Hb [Es Hs]]].
  fold (scan_out (skip_blanks s)) in H. destruct (scan_out (skip_blanks s)) as [v r] eqn:S. destruct Hs as [Hs|Hs].
  - rewrite Hs in S. inversion S; subst v r. cbn [skip_blanks] in H. inversion H; subst. rewrite Es, Hs, app_nil_r. constructor. exact Hb.
  - destruct (scan_out_inv _ _ (le_n _) v r S) as [[A B]|[t [c [r' [A [B [C D]]]]]]].
    + subst r. cbn [skip_blanks] in H. inversion H; subst. rewrite Es. apply l_last; assumption.
    + assert (Ht : begins_word t).
      { destruct t as [|x t]; [|destruct Hs as [y [t' [E1 E2]]]; rewrite A in E1; cbn [app] in E1; inversion E1; subst; exists y, t; auto].
        cbn [app] in A. destruct Hs as [y [t' [E1 E2]]]. rewrite A, C in E1. inversion E1; subst. congruence. }
      destruct (skip_split r) as [b' [Hb' [Er Hr]]]. destruct (skip_blanks r) as [|y r2] eqn:K.
      * inversion H; subst l. rewrite app_nil_r in Er. rewrite Es, A, Er. apply l_last_blank; assumption.
      * destruct (argv_loop f (y :: r2)) as [l'|] eqn:L; [|discriminate]. inversion H; subst l. rewrite Es, A, Er.
        destruct Hr as [Hr|Hr]; [discriminate|]. apply l_more; try assumption; [|apply IH; exact L].
        intros ->. cbn [app] in Er. rewrite C in Er. inversion Er; subst. destruct Hr as [y' [t' [E1 E2]]]. inversion E1; subst. congruence.
Qed.

(** ** C38 *)

(** The vector is exactly what the grammar says: every line has one, whatever it contains. *)
Theorem C38_splits_by_grammar : forall s, exists l, buildargv s = Some l /\ aline s l /\ forall l', aline s l' -> l' = l.
Proof.
  intros s. unfold buildargv.
  assert (T : forall f s, length s < f -> exists l, argv_loop f s = Some l).
  { clear s. induction f as [|f IH]; intros s Hf; [lia|]. cbn [argv_loop]. destruct (skip_split s) as [b [Hb [Es Hs]]].
    fold (scan_out (skip_blanks s)). destruct (scan_out (skip_blanks s)) as [v r] eqn:S.
    destruct (skip_blanks r) as [|y r2] eqn:K; [eauto|]. destruct (IH (y :: r2)) as [l L]; [|rewrite L; eauto].
    destruct Hs as [Hs|Hs]; [rewrite Hs in S; inversion S; subst; discriminate|].
    destruct (scan_out_inv _ _ (le_n _) v r S) as [[A B]|[t [c [r' [A [B [C D]]]]]]]; [subst r; discriminate|].
    destruct (skip_split r) as [b' [Hb' [Er _]]]. rewrite K in Er. rewrite Es, A, Er, !app_length in Hf.
    assert (b' <> []). { intros ->. cbn [app] in Er. rewrite C in Er. inversion Er; subst. pose proof K as K'. cbn [skip_blanks] in K'. rewrite D in K'.
      pose proof (f_equal (@length _) K') as Q. cbn [length] in Q. assert (W : forall x, length (skip_blanks x) <= length x) by (induction x as [|z x IHx]; [auto|cbn [skip_blanks length]; destruct (isblank z); cbn [length]; lia]).
      pose proof (W r2). lia. }
    destruct b'; [contradiction|]. cbn [length] in *. lia. }
  destruct (T (S (length s)) s (Nat.lt_succ_diag_r _)) as [l L]. exists l. split; [exact L|]. split; [apply (loop_aline _ _ _ L)|].
  intros l' H. pose proof (aline_loop s l' H (S (length s)) (Nat.lt_succ_diag_r _)) as E. congruence.
Qed.
Print Assumptions C38_splits_by_grammar.

Lemma quoted_word : forall a, aword (quoted a) a.
Proof.
  intros a. unfold quoted. replace a with (a ++ []) at 2 by apply app_nil_r. apply w_quote; [left; reflexivity| |constructor].
  induction a as [|c a IH]; [constructor|]. cbn [flat_map]. destruct ((c =?c c_sq) || (c =?c c_bslash)) eqn:E.
  - cbn [app]. constructor. exact IH.
  - apply orb_false_iff in E. destruct E as [E1 E2]. cbn [app]. constructor; [apply Ascii.eqb_neq; exact E1|apply Ascii.eqb_neq; exact E2|exact IH].
Qed.

(** Arguments quoted and joined by spaces come back, whatever they contain. *)
Theorem C38_round_trip : forall l, l <> [] -> buildargv (spaced (map quoted l)) = Some l.
Proof.
  intros l N. apply aline_loop; [|lia].
  assert (B : forall a, begins_word (quoted a)) by (intros a; eexists _, _; split; reflexivity).
  induction l as [|a l IH]; [contradiction|]. destruct l as [|b l].
  - apply (l_last []); [constructor|apply B|apply cs_word; apply quoted_word].
  - assert (E : spaced (map quoted (a :: b :: l)) = [] ++ quoted a ++ [c_sp] ++ spaced (map quoted (b :: l))) by reflexivity.
    rewrite E. apply l_more; [constructor|apply B|apply quoted_word|constructor; [reflexivity|constructor]|discriminate| |apply IH; discriminate].
    cbn [map spaced]. destruct (map quoted l); [apply B|apply begins_app; apply B].
Qed.
Print Assumptions C38_round_trip.
Example C38_example :
  buildargv (s2l "  break 'a b'x ""c\""d"" ") = Some [s2l "break"; s2l "a bx"; s2l "c""d"] /\ buildargv [] = Some [[]].
Proof. split; reflexivity. Qed.

(** Single quotes do not protect a backslash, unlike in the shell. *)
Theorem C38_shell_quotes_refuted : exists a, ~ In c_sq a /\ buildargv (c_sq :: a ++ [c_sq]) <> Some [a].
Proof. exists (s2l "a\b"). split; [cbn; intuition congruence|discriminate]. Qed.
Print Assumptions C38_shell_quotes_refuted.
