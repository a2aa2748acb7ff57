From Verif Require Import Base M_Cmd S_Cmd.
From Coq Require Import Lia.
Open Scope string_scope.
Open Scope list_scope.
Open Scope nat_scope.

(** * The characters *)
Lemma active_sh : forall c, mem c sh_chars = false -> active c = false.
Proof.
  intros c. unfold mem, active, sh_chars. cbn -[Ascii.eqb]. repeat rewrite orb_false_iff. intuition.
Qed.
Lemma dq_sh : forall c, mem c sh_chars = false -> (c =?c c_dq) = false.
Proof. intros c. unfold mem, sh_chars. cbn -[Ascii.eqb c_dq]. repeat rewrite orb_false_iff. intuition. Qed.
Lemma blank_cases : forall c, isblank c = true -> c = c_sp \/ c = c_tab.
Proof. intros c H. unfold isblank in H. apply orb_true_iff in H. destruct H as [H|H]; apply eqc_true in H; auto. Qed.

Definition qof (i : option ascii) : quote := match i with None => Unq | Some _ => Sq end.
Definition pof (i : option ascii) : place := match i with None => Out | Some _ => InS end.
Definition raw_of (raw : option str) : str := match raw with Some r => r | None => [] end.
Definition nonempty (cur : str) : bool := negb (match cur with [] => true | _ => false end).

(** * One word as written against one argument *)
Record word (w : str) (raw : option str) (cur : str) (i : option ascii) (last : bool) : Prop := {
  w_quote : i = None \/ i = Some c_sq;
  w_val : forall x, unquote Unq (raw_of raw ++ x) = cur ++ unquote (qof i) x;
  w_cut : forall x, cut Unq None (join Unq (w ++ x)) = cut (qof i) raw (join (qof i) x);
  w_place : fold_left next w Out = pof i;
  w_none : raw = None -> cur = [] /\ last = false /\ i = None;
  w_some : raw <> None -> i = None -> cur <> [] \/ last = true }.
Lemma word_new : word [] None [] None false.
Proof. split; auto; intros H; contradiction. Qed.

Lemma raw_add : forall raw t, raw_of (add raw t) = raw_of raw ++ t.
Proof. intros [r|] t; reflexivity. Qed.
Lemma word_plain : forall w raw cur last c, word w raw cur None last ->
  (c =?c c_nl) = false -> isblank c = false -> active c = false -> (c =?c c_bslash) = false -> (c =?c c_sq) = false -> (c =?c c_dq) = false ->
  word (w ++ [c]) (add raw [c]) (cur ++ [c]) None last.
Proof.
  intros w raw cur last c [A B C D E F] N Bl Ac Bs Sq Dq. split.
  - auto.
  - intros x. rewrite raw_add, <- app_assoc, B. cbn [app qof unquote]. rewrite Bs, Sq, Dq, <- app_assoc. reflexivity.
  - intros x. rewrite <- app_assoc, C. cbn [app qof join]. rewrite Bs, Sq, Dq. cbn [cut]. rewrite N, Bl, Ac, Bs, Sq, Dq. reflexivity.
  - rewrite fold_left_app, D. cbn [fold_left next pof]. rewrite Bs, Sq, Dq. reflexivity.
  - destruct raw; discriminate.
  - intros _ _. left. destruct cur; discriminate.
Qed.
Lemma word_open : forall w raw cur last, word w raw cur None last -> word (w ++ [c_sq]) (add raw [c_sq]) cur (Some c_sq) last.
Proof.
  intros w raw cur last [A B C D E F]. split.
  - auto.
  - intros x. rewrite raw_add, <- app_assoc, B. reflexivity.
  - intros x. rewrite <- app_assoc, C. reflexivity.
  - rewrite fold_left_app, D. reflexivity.
  - destruct raw; discriminate.
  - intros _ H. discriminate H.
Qed.
Lemma word_close : forall w raw cur last, word w raw cur (Some c_sq) last ->
  word (w ++ [c_sq]) (add raw [c_sq]) cur None (last || match cur with [] => true | _ => false end).
Proof.
  intros w raw cur last [A B C D E F]. split.
  - auto.
  - intros x. rewrite raw_add, <- app_assoc, B. reflexivity.
  - intros x. rewrite <- app_assoc, C. reflexivity.
  - rewrite fold_left_app, D. reflexivity.
  - destruct raw; discriminate.
  - intros _ _. destruct cur; [right; apply orb_true_r | left; discriminate].
Qed.
Lemma word_in : forall w raw cur last c, word w raw cur (Some c_sq) last -> (c =?c c_sq) = false -> word (w ++ [c]) (add raw [c]) (cur ++ [c]) (Some c_sq) last.
Proof.
  intros w raw cur last c [A B C D E F] H. split.
  - auto.
  - intros x. rewrite raw_add, <- app_assoc, B. cbn [app qof unquote]. rewrite H, <- app_assoc. reflexivity.
  - intros x. rewrite <- app_assoc, C. cbn [app qof join]. rewrite H. cbn [cut]. rewrite H. reflexivity.
  - rewrite fold_left_app, D. cbn [fold_left next pof]. rewrite H. reflexivity.
  - destruct raw; discriminate.
  - intros _ G. discriminate G.
Qed.
Lemma word_escaped : forall w raw cur last d, word w raw cur None last -> (d =?c c_nl) = false -> word (w ++ [c_bslash; d]) (add raw [c_bslash; d]) (cur ++ [d]) None last.
Proof.
  intros w raw cur last c [A B C D E F] H. split.
  - auto.
  - intros x. rewrite raw_add, <- app_assoc, B, <- app_assoc. reflexivity.
  - intros x. rewrite <- app_assoc, C. cbn [app qof join]. rewrite eqc_refl, H. reflexivity.
  - rewrite fold_left_app, D. reflexivity.
  - destruct raw; discriminate.
  - intros _ _. left. destruct cur; discriminate.
Qed.
Lemma word_joined : forall w raw cur last, word w raw cur None last -> word (w ++ [c_bslash; c_nl]) raw cur None last.
Proof.
  intros w raw cur last [A B C D E F]. split; auto.
  - intros x. rewrite <- app_assoc, C. reflexivity.
  - rewrite fold_left_app, D. reflexivity.
Qed.

Lemma word_value : forall w raw cur last r, word w raw cur None last -> raw = Some r -> unquote Unq r = cur.
Proof. intros w raw cur last r W E. pose proof (w_val _ _ _ _ _ W []) as H. subst raw. cbn [raw_of qof unquote] in H. rewrite !app_nil_r in H. exact H. Qed.
Lemma word_alone : forall w raw cur last, word w raw cur None last -> raw <> None -> shell_words w = Some [cur].
Proof.
  intros w raw cur last W N. unfold shell_words, written. pose proof (w_cut _ _ _ _ _ W []) as H. rewrite app_nil_r in H. rewrite H. cbn [qof join cut].
  destruct raw as [r|]; [|contradiction]. cbn [ends option_map map]. rewrite (word_value _ _ _ _ _ W eq_refl). reflexivity.
Qed.

(** Nothing set by the word. *)
Lemma no_assignment_nil : ~ assignment [].
Proof. intros (a & b & E & _). destruct a; discriminate E. Qed.
Lemma app_eq_unit_r : forall (r : str) c a e b, r ++ [c] = a ++ e :: b -> (exists b', r = a ++ e :: b') \/ (a = r /\ e = c).
Proof.
  intros r c a e b. revert a. induction r as [|x r IH]; intros a E; destruct a as [|y a].
  - injection E as <- <-. auto.
  - cbn in E. injection E as _ E. destruct a; discriminate E.
  - injection E as <- E. left. exists r. reflexivity.
  - cbn in E. injection E as <- E. destruct (IH _ E) as [[b' G]|[-> ->]]; [left; exists b'; cbn; f_equal; exact G | right; auto].
Qed.
Lemma no_assignment_other : forall r c, ~ assignment r -> c <> c_eq -> ~ assignment (r ++ [c]).
Proof.
  intros r c N D (a & b & E & Q). destruct (app_eq_unit_r _ _ _ _ _ E) as [[b' G]|[-> H]]; [|congruence]. apply N. exists a, b'. auto.
Qed.
Lemma no_assignment_quoted : forall r c, ~ assignment r -> In c_sq r \/ In c_bslash r -> ~ assignment (r ++ [c]).
Proof.
  intros r c N D (a & b & E & Q). destruct (app_eq_unit_r _ _ _ _ _ E) as [[b' G]|[-> H]]; [apply N; exists a, b'; auto|].
  destruct D as [D|D]; destruct (Q _ D) as (X & Y & Z); congruence.
Qed.

Definition starts_blank (p : str) : bool := match p with c :: _ => isblank c | [] => false end.
Definition is_none {A} (o : option A) : bool := match o with None => true | Some _ => false end.

Section Sim.
  Variable restp os : bool.
  Variable line : str.
  Variable lines : restp = true \/ ~ In c_nl line.
  Variable safe : ~ empty_then_joined line.

  Record inv (pre w p : str) (args : list str) (raw : option str) (cur : str) (i : option ascii) (sne last skip : bool) : Prop := {
    i_word : word w raw cur i last;
    i_line : line = pre ++ w ++ p;
    i_pre : pre = [] \/ exists pre' b, pre = pre' ++ [b] /\ isblank b = true /\ place_after pre' = Out;
    i_out : place_after pre = Out;
    i_skip : skip = true -> i = None /\ cur = [] /\ (raw = None \/ starts_blank p = false);
    i_new : raw = None -> skip = true \/ starts_blank p = false;
    i_first : args = [] -> sne = false /\ ~ assignment (raw_of raw);
    i_later : args <> [] -> sne = true;
    i_quote : i <> None -> In c_sq (raw_of raw) }.

  Lemma pre_blank : forall pre w b, place_after pre = Out -> fold_left next w Out = Out -> isblank b = true ->
    (exists pre' b', pre ++ w ++ [b] = pre' ++ [b'] /\ isblank b' = true /\ place_after pre' = Out) /\ place_after (pre ++ w ++ [b]) = Out.
  Proof.
    intros pre w b A B C. assert (H : place_after (pre ++ w) = Out) by (unfold place_after in *; rewrite fold_left_app, A; exact B). split.
    - exists (pre ++ w), b. rewrite app_assoc. auto.
    - unfold place_after. rewrite app_assoc, fold_left_app. unfold place_after in H. rewrite H. cbn [fold_left next].
      destruct (blank_cases _ C) as [-> | ->]; reflexivity.
  Qed.

  Lemma done_finish : forall i args cur last r argv rest, finish i args cur last r = Done argv rest ->
    i = None /\ rest = r /\ argv = (if nonempty cur || last then args ++ [cur] else args).
  Proof.
    intros i args cur last r argv rest. unfold finish, nonempty. destruct i; [discriminate|]. cbv zeta. destruct (if _ || last then _ else _) as [|w [|v l]].
    - intros H. injection H as <- <-. auto.
    - destruct (builtin w); [discriminate|]. intros H. injection H as <- <-. auto.
    - intros H. injection H as <- <-. auto.
  Qed.
  Lemma finish_words : forall w raw cur last (args : list str), word w raw cur None last ->
    (if nonempty cur || last then args ++ [cur] else args) = args ++ map (unquote Unq) (ends raw).
  Proof.
    intros w raw cur last args W. destruct raw as [r|].
    - cbn [ends map]. rewrite (word_value _ _ _ _ _ W eq_refl). assert (nonempty cur || last = true) as ->; [|reflexivity].
      destruct (w_some _ _ _ _ _ W) as [H|H]; try discriminate; auto. + destruct cur; [contradiction|reflexivity]. + rewrite H. apply orb_true_r.
    - destruct (w_none _ _ _ _ _ W eq_refl) as (-> & -> & _). cbn. rewrite app_nil_r. reflexivity.
  Qed.

  Lemma sim : forall n p pre w args raw cur i he sne last skip argv rest, length p <= n ->
    inv pre w p args raw cur i sne last skip ->
    fast restp os p args cur i he sne last skip = Done argv rest ->
    (rest = None -> place_after line <> Esc) ->
    exists raws, cut (qof i) raw (join (qof i) p) = Some raws /\ argv = args ++ map (unquote Unq) raws /\
      (args = [] -> match raws with r :: _ => ~ assignment r | [] => True end).
  Proof.
    induction n as [|n IH]; intros p pre w args raw cur i he sne last skip argv rest L [W LN PR PO SK NW FI LA QU] R DG; (destruct p as [|c q]; [|cbn [length] in L; try (exfalso; lia)]).
    - cbn [fast] in R. destruct (done_finish _ _ _ _ _ _ _ R) as (-> & _ & ->). exists (ends raw). cbn [qof join cut]. split; [reflexivity|]. split; [exact (finish_words _ _ _ _ _ W)|].
      intros A. destruct (FI A) as (_ & B). destruct raw; cbn [ends]; auto.
    - cbn [fast] in R. destruct (done_finish _ _ _ _ _ _ _ R) as (-> & _ & ->). exists (ends raw). cbn [qof join cut]. split; [reflexivity|]. split; [exact (finish_words _ _ _ _ _ W)|].
      intros A. destruct (FI A) as (_ & B). destruct raw; cbn [ends]; auto.
    - cbn [fast] in R. destruct (skip && isblank c) eqn:SB.
      { apply andb_true_iff in SB. destruct SB as (SB1 & SB2). destruct (SK SB1) as (-> & -> & RN). destruct RN as [-> | RN]; [|cbn [starts_blank] in RN; congruence].
        destruct (w_none _ _ _ _ _ W eq_refl) as (_ & -> & _).
        destruct (pre_blank pre w c PO (w_place _ _ _ _ _ W) SB2) as (P1 & P2).
        edestruct (IH q (pre ++ w ++ [c]) [] args None [] None he sne false true) as (raws & E1 & E2 & E3); [lia | | exact R | exact DG | ].
        - split; auto using word_new. + rewrite LN, <- !app_assoc. reflexivity.
        - exists raws. split; [|split; [exact E2 | exact E3]]. cbn [qof join]. destruct (blank_cases _ SB2) as [-> | ->]; cbn [cut]; cbn [ends option_map app] in *; cbn in E1 |- *; rewrite E1; reflexivity. }
      destruct i as [k|].
      { destruct (w_quote _ _ _ _ _ W) as [?|KE]; [discriminate|]. injection KE as ->. pose proof (QU ltac:(discriminate)) as QI.
        destruct (c =?c c_sq) eqn:E1.
        { apply eqc_true in E1. subst c.
          edestruct (IH q pre (w ++ [c_sq]) args (add raw [c_sq]) cur None he sne (last || match cur with [] => true | _ => false end) false) as (raws & F1 & F2 & F3); [lia | | exact R | exact DG | ].
          - split; auto using word_close.
            + rewrite LN, <- !app_assoc. reflexivity.
            + discriminate.
            + destruct raw; discriminate.
            + intros A. destruct (FI A) as (B & C). split; [exact B|]. rewrite raw_add. apply no_assignment_other; [exact C|discriminate].
            + congruence.
          - exists raws. auto. }
        assert (PLAIN : forall c' q' R', c :: q = c' :: q' -> (c' =?c c_sq) = false -> length q' <= n -> fast restp os q' args (cur ++ [c']) (Some c_sq) he sne last false = R' -> R' = Done argv rest ->
           exists raws, cut Sq raw (c' :: join Sq q') = Some raws /\ argv = args ++ map (unquote Unq) raws /\ (args = [] -> match raws with r :: _ => ~ assignment r | [] => True end)).
        { intros c' q' R' EQ NS LQ <- RR.
          edestruct (IH q' pre (w ++ [c']) args (add raw [c']) (cur ++ [c']) (Some c_sq) he sne last false) as (raws & F1 & F2 & F3); [exact LQ | | exact RR | exact DG | ].
          - split; auto using word_in.
            + rewrite LN, EQ, <- !app_assoc. reflexivity.
            + discriminate.
            + destruct raw; discriminate.
            + intros A. destruct (FI A) as (B & C). split; [exact B|]. rewrite raw_add. apply no_assignment_quoted; auto.
            + intros _. rewrite raw_add. apply in_or_app. auto.
          - exists raws. cbn [cut]. rewrite NS. auto. }
        assert (OTHER : (if (c =?c c_nl) && restp then finish (Some c_sq) args cur last (Some (c :: q)) else if (c_sq =?c c_dq) && mem c (s2l "\$`") then Slow None
             else fast restp os q args (cur ++ [c]) (Some c_sq) he sne last false) = Done argv rest ->
           exists raws, cut Sq raw (c :: join Sq q) = Some raws /\ argv = args ++ map (unquote Unq) raws /\ (args = [] -> match raws with r :: _ => ~ assignment r | [] => True end)).
        { intros O. destruct ((c =?c c_nl) && restp); [discriminate O|]. change (c_sq =?c c_dq) with false in O. cbn [andb] in O.
          eapply PLAIN; [reflexivity | exact E1 | lia | reflexivity | exact O]. }
        cbn [qof join]. rewrite E1. cbv zeta in R. destruct (c =?c c_bslash) eqn:E2; [|exact (OTHER R)].
        destruct q as [|d q']; [exact (OTHER R)|]. destruct (d =?c c_nl) eqn:E3; [|exact (OTHER R)].
        apply eqc_true in E2, E3. subst c d. change (c_sq =?c c_dq) with false in R. cbn match in R.
        edestruct (IH q' pre ((w ++ [c_bslash]) ++ [c_nl]) args (add (add raw [c_bslash]) [c_nl]) ((cur ++ [c_bslash]) ++ [c_nl]) (Some c_sq) he sne last false) as (raws & F1 & F2 & F3).
        - cbn [length] in L. lia.
        - split.
          + apply word_in; [|reflexivity]. apply word_in; [exact W|reflexivity].
          + rewrite LN, <- !app_assoc. reflexivity.
          + exact PR.
          + exact PO.
          + discriminate.
          + destruct raw; discriminate.
          + intros A. destruct (FI A) as (B & C). split; [exact B|]. rewrite !raw_add. apply no_assignment_other; [|discriminate]. apply no_assignment_other; [exact C|discriminate].
          + exact LA.
          + intros _. rewrite !raw_add. apply in_or_app. left. apply in_or_app. auto.
        - rewrite <- app_assoc. exact R.
        - exact DG.
        - exists raws. split; [exact F1|]. auto. }
      destruct (mem c sh_chars) eqn:MS; [discriminate R|]. destruct (os && (c =?c c_nl)); [discriminate R|].
      pose proof (active_sh _ MS) as AC. pose proof (dq_sh _ MS) as DQ.
      assert (PLAIN : forall he', (c =?c c_nl) = false -> isblank c = false -> (c =?c c_bslash) = false -> (c =?c c_sq) = false -> (args = [] -> c <> c_eq) ->
         fast restp os q args (cur ++ [c]) None he' sne last false = Done argv rest ->
         exists raws, cut Unq raw (join Unq (c :: q)) = Some raws /\ argv = args ++ map (unquote Unq) raws /\ (args = [] -> match raws with r :: _ => ~ assignment r | [] => True end)).
      { intros he' N1 N2 N3 N4 N5 RR.
        edestruct (IH q pre (w ++ [c]) args (add raw [c]) (cur ++ [c]) None he' sne last false) as (raws & F1 & F2 & F3); [lia | | exact RR | exact DG | ].
        - split; auto using word_plain.
          + rewrite LN, <- !app_assoc. reflexivity.
          + discriminate.
          + destruct raw; discriminate.
          + intros A. destruct (FI A) as (B & C). split; [exact B|]. rewrite raw_add. apply no_assignment_other; auto.
          + congruence.
        - exists raws. split; [|auto]. cbn [join]. rewrite N3, N4, DQ. cbn [cut]. rewrite N1, N2, AC, N3, N4, DQ. exact F1. }
      destruct (c =?c c_eq) eqn:E1.
      { apply eqc_true in E1. subst c. destruct sne eqn:SN; [|discriminate R]. cbn [negb] in R. eapply PLAIN; try reflexivity; [|exact R].
        intros A. destruct (FI A) as (B & _). discriminate B. }
      destruct (c =?c c_bslash) eqn:E2.
      { apply eqc_true in E2. subst c. destruct q as [|d q'].
        - exfalso. cbn [fast] in R. destruct (done_finish _ _ _ _ _ _ _ R) as (_ & -> & _). apply (DG eq_refl). rewrite LN. unfold place_after in *. rewrite !fold_left_app, PO, (w_place _ _ _ _ _ W). reflexivity.
        - destruct (d =?c c_nl) eqn:E3.
          + apply eqc_true in E3. subst d.
            assert (SBF : raw = None \/ cur <> [] \/ starts_blank q' = false).
            { destruct raw as [r|]; [|auto]. destruct cur as [|x cur]; [|right; left; discriminate]. right. right. destruct q' as [|b q'']; [reflexivity|]. cbn [starts_blank].
              destruct (isblank b) eqn:BB; [|reflexivity]. exfalso. apply safe. exists pre, w, b, q''. split; [exact LN|]. split; [exact BB|]. split; [exact PR|].
              eapply word_alone; [exact W|discriminate]. }
            edestruct (IH q' pre (w ++ [c_bslash; c_nl]) args raw cur None he sne last (match cur with [] => true | _ => false end)) as (raws & F1 & F2 & F3); [cbn [length] in L; lia | | exact R | exact DG | ].
            * split; auto using word_joined.
              -- rewrite LN, <- !app_assoc. reflexivity.
              -- intros X. split; [reflexivity|]. destruct cur; [|discriminate X]. split; [reflexivity|]. intuition.
              -- intros ->. destruct (w_none _ _ _ _ _ W eq_refl) as (-> & _). auto.
            * exists raws. auto.
          + edestruct (IH q' pre (w ++ [c_bslash; d]) args (add raw [c_bslash; d]) (cur ++ [d]) None he sne last false) as (raws & F1 & F2 & F3); [cbn [length] in L; lia | | exact R | exact DG | ].
            * split; auto using word_escaped.
              -- rewrite LN, <- !app_assoc. reflexivity.
              -- discriminate.
              -- destruct raw; discriminate.
              -- intros A. destruct (FI A) as (B & C). split; [exact B|]. rewrite raw_add. change [c_bslash; d] with ([c_bslash] ++ [d]). rewrite app_assoc.
                 apply no_assignment_quoted; [apply no_assignment_other; [exact C|discriminate]|]. right. apply in_or_app. right. left. reflexivity.
              -- congruence.
            * exists raws. split; [|auto]. cbn [qof join]. rewrite eqc_refl, E3. exact F1. }
      rewrite DQ, orb_false_r in R. destruct (c =?c c_sq) eqn:E3.
      { apply eqc_true in E3. subst c.
        edestruct (IH q pre (w ++ [c_sq]) args (add raw [c_sq]) cur (Some c_sq) he sne last false) as (raws & F1 & F2 & F3); [lia | | exact R | exact DG | ].
        - split; auto using word_open.
          + rewrite LN, <- !app_assoc. reflexivity.
          + discriminate.
          + destruct raw; discriminate.
          + intros A. destruct (FI A) as (B & C). split; [exact B|]. rewrite raw_add. apply no_assignment_other; [exact C|discriminate].
          + intros _. rewrite raw_add. apply in_or_app. right. left. reflexivity.
        - exists raws. auto. }
      destruct (c =?c c_nl) eqn:E4.
      { apply eqc_true in E4. subst c. destruct lines as [RT|NN].
        - rewrite RT in R. destruct (done_finish _ _ _ _ _ _ _ R) as (_ & _ & ->). exists (ends raw). split; [reflexivity|]. split; [exact (finish_words _ _ _ _ _ W)|].
          intros A. destruct (FI A) as (_ & B). destruct raw; cbn [ends]; auto.
        - exfalso. apply NN. rewrite LN. apply in_or_app. right. apply in_or_app. right. left. reflexivity. }
      destruct (isblank c) eqn:E5.
      { cbv zeta in R. destruct (he && _) eqn:HE; [discriminate R|]. destruct (match args with [] => builtin cur | _ => false end); [discriminate R|].
        destruct raw as [r|].
        2:{ exfalso. destruct (NW eq_refl) as [N|N]; [rewrite N in SB; cbn [andb] in SB; congruence | cbn [starts_blank] in N; congruence]. }
        destruct (pre_blank pre w c PO (w_place _ _ _ _ _ W) E5) as (P1 & P2).
        assert (SEEN : sne || negb he = true).
        { destruct he; [|apply orb_true_r]. cbn [andb] in HE. apply negb_false_iff in HE. exact HE. }
        edestruct (IH q (pre ++ w ++ [c]) [] (args ++ [cur]) None [] None false (sne || negb he) false true) as (raws & F1 & F2 & F3); [lia | | exact R | exact DG | ].
        - split; auto using word_new.
          + rewrite LN, <- !app_assoc. reflexivity.
          + intros A. destruct args; discriminate A.
          + congruence.
        - exists (r :: raws). split; [|split].
          + cbn [qof join]. rewrite E2, E3, DQ. cbn [cut]. rewrite E4, E5. cbn [qof] in F1. rewrite F1. reflexivity.
          + rewrite F2, <- app_assoc. cbn [map app]. rewrite (word_value _ _ _ _ _ W eq_refl). reflexivity.
          + intros A. destruct (FI A) as (_ & B). exact B. }
      apply (PLAIN he); auto. intros _ ->. rewrite eqc_refl in E1. discriminate E1.
  Qed.
End Sim.

(** * The start and the end *)
Lemma skip_blanks_out : forall s, exists b, s = b ++ skip_blanks s /\ forallb isblank b = true /\ starts_blank (skip_blanks s) = false.
Proof.
  induction s as [|c s (b & E & B & N)].
  - exists []. auto.
  - cbn [skip_blanks]. destruct (isblank c) eqn:E1.
    + exists (c :: b). cbn [app forallb]. rewrite E1, <- E. auto.
    + exists []. cbn. auto.
Qed.
Lemma written_blanks : forall b s, forallb isblank b = true -> written (b ++ s) = written s.
Proof.
  induction b as [|c b IH]; intros s B; [reflexivity|]. cbn [forallb] in B. apply andb_true_iff in B. destruct B as (B1 & B2).
  rewrite <- (IH s B2). unfold written. cbn [app join]. destruct (blank_cases _ B1) as [-> | ->]; cbn; destruct (cut Unq None (join Unq (b ++ s))); reflexivity.
Qed.
Lemma place_blanks : forall b s p, forallb isblank b = true -> p = Out -> fold_left next (b ++ s) p = fold_left next s Out.
Proof.
  induction b as [|c b IH]; intros s p B ->; [reflexivity|]. cbn [forallb] in B. apply andb_true_iff in B. destruct B as (B1 & B2). cbn [app fold_left].
  apply (IH s); [exact B2|]. destruct (blank_cases _ B1) as [-> | ->]; reflexivity.
Qed.
Lemma hazard_blanks : forall b s, forallb isblank b = true -> empty_then_joined s -> empty_then_joined (b ++ s).
Proof.
  intros b s B (pre & w & c & post & E & C & P1 & Wd). exists (b ++ pre), w, c, post. split; [rewrite E, <- app_assoc; reflexivity|]. split; [exact C|]. split; [|exact Wd].
  destruct P1 as [-> | (pre' & b' & -> & X & Y)].
  - rewrite app_nil_r. destruct b as [|x b]; [auto|]. right. destruct (@exists_last _ (x :: b)) as (b0 & y & E0); [discriminate|]. exists b0, y. split; [exact E0|].
    rewrite E0, forallb_app in B. apply andb_true_iff in B. destruct B as (B1 & B2). cbn [forallb] in B2. rewrite andb_true_r in B2. split; [exact B2|].
    unfold place_after. rewrite <- (app_nil_r b0). rewrite place_blanks; auto.
  - right. exists (b ++ pre'), b'. rewrite app_assoc. split; [reflexivity|]. split; [exact X|]. unfold place_after. rewrite place_blanks; auto.
Qed.

(** * What remains *)
Fixpoint remains (pl : place) (s : str) : option str :=
  match s with
  | [] => None
  | c :: q => match pl with Out => if c =?c c_nl then Some s else remains (next pl c) q | _ => remains (next pl c) q end
  end.
Lemma remains_some : forall s pl r, remains pl s = Some r ->
  exists x y, s = x ++ r /\ r = c_nl :: y /\ fold_left next x pl = Out /\ forall x1 x2, x = x1 ++ c_nl :: x2 -> fold_left next x1 pl <> Out.
Proof.
  induction s as [|c s IH]; intros pl r R; [discriminate R|]. cbn [remains] in R.
  assert (G : remains (next pl c) s = Some r -> (pl = Out -> c <> c_nl) -> exists x y, c :: s = x ++ r /\ r = c_nl :: y /\ fold_left next x pl = Out /\ forall x1 x2, x = x1 ++ c_nl :: x2 -> fold_left next x1 pl <> Out).
  { intros G N. destruct (IH _ _ G) as (x & y & E1 & E2 & E3 & E4). exists (c :: x), y. split; [cbn; rewrite E1; reflexivity|]. split; [exact E2|]. split; [exact E3|].
    intros x1 x2 E. destruct x1 as [|d x1].
    - cbn in E. injection E as -> ->. cbn. intros ->. exact (N eq_refl eq_refl).
    - cbn in E. injection E as <- E. exact (E4 _ _ E). }
  destruct pl; try (apply G; [exact R|intros; discriminate]). destruct (c =?c c_nl) eqn:E.
  - apply eqc_true in E. subst c. injection R as <-. exists [], s. repeat split. intros x1 x2 E. destruct x1; discriminate E.
  - apply G; [exact R|]. intros _ ->. rewrite eqc_refl in E. discriminate E.
Qed.
Lemma remains_none : forall s pl, remains pl s = None -> forall x y, s = x ++ c_nl :: y -> fold_left next x pl <> Out.
Proof.
  induction s as [|c s IH]; intros pl R x y E; [destruct x; discriminate E|]. cbn [remains] in R. destruct x as [|d x].
  - cbn in E. injection E as -> ->. intros H. cbn in H. subst pl. rewrite eqc_refl in R. discriminate R.
  - cbn in E. injection E as <- E. cbn [fold_left]. eapply IH; [|exact E]. destruct pl; try exact R. destruct (c =?c c_nl); [discriminate R|exact R].
Qed.
Lemma fast_rest : forall os n p args cur i he sne last skip argv rest, length p <= n -> i = None \/ i = Some c_sq -> (skip = true -> i = None) ->
  fast true os p args cur i he sne last skip = Done argv rest -> rest = remains (pof i) p.
Proof.
  intros os. induction n as [|n IH]; intros p args cur i he sne last skip argv rest L QI SK R; (destruct p as [|c q]; [|cbn [length] in L; try (exfalso; lia)]);
    try (cbn [fast] in R; destruct (done_finish _ _ _ _ _ _ _ R) as (_ & -> & _); reflexivity).
  cbn [fast] in R. destruct (skip && isblank c) eqn:SB.
  { apply andb_true_iff in SB. destruct SB as (SB1 & SB2). rewrite (SK SB1) in *. cbn [pof remains]. apply IH in R; [|lia|auto|auto]. destruct (blank_cases _ SB2) as [-> | ->]; exact R. }
  destruct i as [k|].
  { destruct QI as [?|KE]; [discriminate|]. injection KE as ->. cbn [pof remains]. destruct (c =?c c_sq) eqn:E1.
    { apply eqc_true in E1. subst c. cbn [next]. apply IH in R; [exact R|lia|auto|discriminate]. }
    cbv zeta in R. cbn [next]. rewrite E1.
    assert (OTHER : (if (c =?c c_nl) && true then finish (Some c_sq) args cur last (Some (c :: q)) else if (c_sq =?c c_dq) && mem c (s2l "\$`") then Slow None
             else fast true os q args (cur ++ [c]) (Some c_sq) he sne last false) = Done argv rest -> rest = remains InS q).
    { intros O. destruct ((c =?c c_nl) && true); [discriminate O|]. change (c_sq =?c c_dq) with false in O. cbn [andb] in O. apply IH in O; [exact O|lia|auto|discriminate]. }
    destruct (c =?c c_bslash) eqn:E2; [|exact (OTHER R)]. destruct q as [|d q']; [exact (OTHER R)|]. destruct (d =?c c_nl) eqn:E3; [|exact (OTHER R)].
    apply eqc_true in E2, E3. subst c d. change (c_sq =?c c_dq) with false in R. cbn match in R. apply IH in R; [exact R|cbn [length] in L; lia|auto|discriminate]. }
  clear QI. cbn [pof remains]. destruct (mem c sh_chars) eqn:MS; [discriminate R|]. destruct (os && (c =?c c_nl)); [discriminate R|]. pose proof (dq_sh _ MS) as DQ.
  destruct (c =?c c_eq) eqn:E1.
  { apply eqc_true in E1. subst c. destruct sne; [|discriminate R]. cbn [negb] in R. apply IH in R; [exact R|lia|auto|auto]. }
  destruct (c =?c c_bslash) eqn:E2.
  { apply eqc_true in E2. subst c. destruct q as [|d q'].
    - cbn [fast] in R. destruct (done_finish _ _ _ _ _ _ _ R) as (_ & -> & _). reflexivity.
    - change (rest = remains Out q'). destruct (d =?c c_nl); apply IH in R; auto; cbn [length] in L; lia. }
  rewrite DQ, orb_false_r in R. destruct (c =?c c_sq) eqn:E3.
  { apply eqc_true in E3. subst c. cbn. apply IH in R; [exact R|lia|auto|discriminate]. }
  destruct (c =?c c_nl) eqn:E4.
  { destruct (done_finish _ _ _ _ _ _ _ R) as (_ & -> & _). reflexivity. }
  cbn [next]. rewrite E2, E3, DQ. destruct (isblank c) eqn:E5.
  { cbv zeta in R. destruct (he && _); [discriminate R|]. destruct (match args with [] => builtin cur | _ => false end); [discriminate R|]. apply IH in R; auto. lia. }
  apply IH in R; auto. lia.
Qed.

(** * The first word is not a built-in *)
Definition head_ok (l : list str) : Prop := match l with w :: _ => builtin w = false | [] => True end.
Lemma finish_head : forall i args cur last r argv rest, finish i args cur last r = Done argv rest -> head_ok args -> head_ok argv.
Proof.
  intros i args cur last r argv rest. unfold finish. destruct i; [discriminate|]. cbv zeta. intros R H.
  destruct (_ || last) eqn:E.
  - destruct args as [|a l].
    + cbn [app] in R. destruct (builtin cur) eqn:B; [discriminate R|]. injection R as <- <-. exact B.
    + cbn [app] in R. destruct (l ++ [cur]) eqn:E2; [destruct l; discriminate E2|]. injection R as <- <-. exact H.
  - destruct args as [|a l]; [injection R as <- <-; exact Logic.I|]. destruct l; [|injection R as <- <-; exact H]. destruct (builtin a); [discriminate R|]. injection R as <- <-. exact H.
Qed.
Lemma fast_head : forall restp os n p args cur i he sne last skip argv rest, length p <= n -> head_ok args ->
  fast restp os p args cur i he sne last skip = Done argv rest -> head_ok argv.
Proof.
  intros restp os. induction n as [|n IH]; intros p args cur i he sne last skip argv rest L H R; (destruct p as [|c q]; [|cbn [length] in L; try (exfalso; lia)]);
    try (cbn [fast] in R; exact (finish_head _ _ _ _ _ _ _ R H)).
  cbn [fast] in R. destruct (skip && isblank c); [apply IH in R; auto; lia|].
  assert (FIN : forall j x, finish j args cur last x = Done argv rest -> head_ok argv) by (intros j x F; exact (finish_head _ _ _ _ _ _ _ F H)).
  assert (GO : forall q' cur' i' he' sne' last' skip', fast restp os q' args cur' i' he' sne' last' skip' = Done argv rest -> length q' < length (c :: q) -> head_ok argv).
  { intros q' cur' i' he' sne' last' skip' F L1. apply IH in F; auto. cbn [length] in L1. lia. }
  destruct i as [k|].
  { cbv zeta in R.
    repeat match type of R with
           | (if ?b then _ else _) = _ => destruct b; try discriminate R
           | match ?l with [] => _ | _ :: _ => _ end = _ => destruct l
           end; try (eapply FIN; exact R); (eapply GO; [exact R|cbn [length]; lia]). }
  destruct (mem c sh_chars); [discriminate R|]. destruct (os && _); [discriminate R|].
  destruct (c =?c c_eq). { destruct (negb sne); [discriminate R|]. apply IH in R; auto; lia. }
  destruct (c =?c c_bslash). { destruct q as [|d q']; [cbn [fast] in R; eapply FIN; exact R|]. cbn [length] in L. destruct (d =?c c_nl); apply IH in R; auto; lia. }
  destruct (_ || _). { apply IH in R; auto; lia. }
  destruct (c =?c c_nl). { destruct restp; [eapply FIN; exact R|]. apply IH in R; auto; lia. }
  destruct (isblank c). 2:{ apply IH in R; auto; lia. }
  cbv zeta in R. destruct (he && _); [discriminate R|]. destruct args as [|a l].
  - destruct (builtin cur) eqn:B; [discriminate R|]. apply IH in R; auto; lia.
  - apply IH in R; auto; lia.
Qed.

(** * The buffers *)
Definition room (args : list str) : nat := fold_right (fun a n => S (length a) + n) 0 args.
Lemma room_app : forall a b, room (a ++ b) = room a + room b.
Proof. unfold room. induction a as [|x a IH]; intros b; cbn [fold_right app]; [reflexivity|]. rewrite IH. lia. Qed.
Definition open_arg (cur : str) (last : bool) : nat := if nonempty cur || last then 1 else 0.
Lemma finish_room : forall i args cur last r argv rest, finish i args cur last r = Done argv rest ->
  room argv <= room args + length cur + 1 /\ length argv = length args + open_arg cur last.
Proof.
  intros i args cur last r argv rest R. destruct (done_finish _ _ _ _ _ _ _ R) as (_ & _ & ->). unfold open_arg. destruct (nonempty cur || last).
  - rewrite room_app, app_length. cbn. lia.
  - lia.
Qed.
Lemma fast_room : forall restp os n p args cur i he sne last skip argv rest, length p <= n ->
  fast restp os p args cur i he sne last skip = Done argv rest ->
  room argv <= room args + length cur + length p + 1 /\ length argv <= length args + open_arg cur last + length p.
Proof.
  intros restp os. induction n as [|n IH]; intros p args cur i he sne last skip argv rest L R; (destruct p as [|c q]; [|cbn [length] in L; try (exfalso; lia)]);
    try (cbn [fast] in R; apply finish_room in R; cbn [length]; lia).
  assert (OC : forall x y, open_arg x y <= 1) by (intros x y; unfold open_arg; destruct (_ || y); lia).
  pose proof (OC cur last) as OC0.
  assert (FIN : forall j x, finish j args cur last x = Done argv rest -> room argv <= room args + length cur + length (c :: q) + 1 /\ length argv <= length args + open_arg cur last + length (c :: q)).
  { intros j x F. apply finish_room in F. cbn [length]. lia. }
  assert (GO : forall q' cur' i' he' sne' last' skip', fast restp os q' args cur' i' he' sne' last' skip' = Done argv rest -> length q' < length (c :: q) -> length cur' + length q' <= length cur + length (c :: q) -> 
     room argv <= room args + length cur + length (c :: q) + 1 /\ length argv <= length args + open_arg cur last + length (c :: q)).
  { intros q' cur' i' he' sne' last' skip' F L1 L2. assert (open_arg cur' last' <= open_arg cur last + 1) by (pose proof (OC cur' last'); lia). apply IH in F; [|cbn [length] in L1; lia]. cbn [length] in *. lia. }
  cbn [fast] in R. destruct (skip && isblank c); [eapply GO; [exact R|cbn [length]; lia|cbn [length]; lia]|].
  destruct i as [k|].
  { cbv zeta in R.
    repeat match type of R with
           | (if ?b then _ else _) = _ => destruct b; try discriminate R
           | match ?l with [] => _ | _ :: _ => _ end = _ => destruct l
           end; try (eapply FIN; exact R); (eapply GO; [exact R|cbn [length]; lia|rewrite ?app_length; cbn [length]; lia]). }
  destruct (mem c sh_chars); [discriminate R|]. destruct (os && _); [discriminate R|].
  destruct (c =?c c_eq). { destruct (negb sne); [discriminate R|]. eapply GO; [exact R|cbn [length]; lia|rewrite ?app_length; cbn [length]; lia]. }
  destruct (c =?c c_bslash). { destruct q as [|d q']; [|destruct (d =?c c_nl)]; (eapply GO; [exact R|cbn [length]; lia|rewrite ?app_length; cbn [length]; lia]). }
  destruct (_ || _). { eapply GO; [exact R|cbn [length]; lia|rewrite ?app_length; cbn [length]; lia]. }
  destruct (c =?c c_nl). { destruct restp; [eapply FIN; exact R|]. eapply GO; [exact R|cbn [length]; lia|rewrite ?app_length; cbn [length]; lia]. }
  destruct (isblank c). 2:{ eapply GO; [exact R|cbn [length]; lia|rewrite ?app_length; cbn [length]; lia]. }
  cbv zeta in R. destruct (he && _); [discriminate R|]. destruct (match args with [] => builtin cur | _ => false end); [discriminate R|].
  apply IH in R; [|lia]. rewrite room_app, app_length in R. cbn [room fold_right length] in R. change (open_arg [] false) with 0 in R. cbn [length]. lia.
Qed.
