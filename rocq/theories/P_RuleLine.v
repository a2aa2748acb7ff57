From Verif Require Import Base M_Text M_Quote M_Var M_Def M_Implicit M_Seq M_RuleLine S_Text S_Expand S_Eval S_Quote S_Def S_Seq S_RuleLine P_Text P_Quote P_Def P_Seq.
Open Scope string_scope.
Open Scope list_scope.
Open Scope nat_scope.

Ltac nin H := intros X; apply H; cbn; intuition congruence.
Lemma nin_neq (c : ascii) (l : str) d : ~ In c l -> In d l -> (c =?c d) = false.
Proof. intros H I. apply Ascii.eqb_neq. intros ->. exact (H I). Qed.

(** ** The first unquoted semicolon or number sign *)
Lemma nested_balanced o c b : nested o c b -> balanced o c b.
Proof. induction 1; [constructor|constructor; assumption|constructor; assumption]. Qed.
Definition hit_of (tail : str) : option str := match tail with [] => None | _ => Some tail end.
Lemma cut_whole stop h : stop = (fun c => (c =?c c_semi) || (c =?c c_hash)) -> whole h -> forall fuel rp tail,
  length (h ++ tail) < fuel ->
  (forall c r, tail = c :: r -> stop c = true /\ forall b q, rev h ++ rp = b :: q -> b <> c_bslash) ->
  find_map_unquote_loop stop true fuel rp (h ++ tail) = Some (mkfound (rev rp ++ h) (hit_of tail)).
Proof.
  intros ST W. induction W as [|c t H W IH|d t H1 H2 W IH|op cl b t B N W IH]; intros fuel rp tail L T; (destruct fuel as [|fuel]; [cbn in L; lia|]).
  - cbn [app]. destruct tail as [|c r]; cbn [find_map_unquote_loop hit_of]; [rewrite app_nil_r; reflexivity|].
    destruct (T c r eq_refl) as [T1 T2]. assert (D : (c =?c c_dollar) = false) by (destruct (c =?c c_dollar) eqn:E; [|reflexivity]; apply eqc_true in E; subst c stop; discriminate T1).
    rewrite D. cbn [andb]. rewrite T1. cbn [rev app] in T2.
    assert (C0 : count_bs rp = 0). { destruct rp as [|b q]; [reflexivity|]. cbn [count_bs]. rewrite (proj2 (Ascii.eqb_neq b c_bslash) (T2 b q eq_refl)). reflexivity. }
    rewrite C0. cbn [Nat.even Nat.sub Nat.div Nat.divmod fst drop]. rewrite app_nil_r. reflexivity.
  - cbn [app find_map_unquote_loop]. rewrite (nin_neq c _ c_dollar H) by (cbn; auto). cbn [andb].
    assert (SC : stop c = false) by (subst stop; rewrite (nin_neq c _ c_semi H), (nin_neq c _ c_hash H) by (cbn; auto); reflexivity). rewrite SC.
    rewrite IH; [|cbn in L; lia|]. { cbn [rev]. rewrite <- app_assoc. reflexivity. }
    intros c' r E. destruct (T c' r E) as [T1 T2]. split; [exact T1|]. intros b q E2. apply (T2 b q). cbn [rev]. rewrite <- app_assoc. exact E2.
  - cbn [app find_map_unquote_loop]. cbn [andb]. change (c_dollar =?c c_dollar) with true. cbv iota. rewrite (proj2 (Ascii.eqb_neq d c_lparen) H1), (proj2 (Ascii.eqb_neq d c_lbrace) H2). cbn [orb].
    rewrite IH; [|cbn in L; lia|]. { cbn [rev]. rewrite <- !app_assoc. reflexivity. }
    intros c' r E. destruct (T c' r E) as [T1 T2]. split; [exact T1|]. intros b q E2. apply (T2 b q). cbn [rev]. rewrite <- !app_assoc. exact E2.
  - cbn [app find_map_unquote_loop andb]. change (c_dollar =?c c_dollar) with true. cbv iota.
    assert (Q : (op =?c c_lparen) || (op =?c c_lbrace) = true /\ (if op =?c c_lparen then c_rparen else c_rbrace) = cl) by (destruct B as [[-> ->]|[-> ->]]; split; reflexivity).
    destruct Q as [-> ->]. rewrite <- app_assoc. cbn [app]. rewrite skip_ref_balanced; [|exact (brackets_ne _ _ B)|apply nested_balanced; exact N].
    cbn [M_Quote.skip_ref]. rewrite (proj2 (Ascii.eqb_neq cl op)) by (intros E; exact (brackets_ne _ _ B (eq_sym E))). rewrite eqc_refl.
    rewrite IH.
    + f_equal. f_equal. cbn [rev]. rewrite rev_app_distr, rev_involutive. cbn [rev app]. repeat (rewrite <- ?app_assoc; cbn [app]). reflexivity.
    + cbn [app length] in L. rewrite <- app_assoc in L. rewrite !app_length in L. cbn [length app] in L. rewrite !app_length in *. lia.
    + intros c' r E. destruct (T c' r E) as [T1 T2]. split; [exact T1|]. intros b' q E2. apply (T2 b' q). cbn [rev]. rewrite rev_app_distr. cbn [rev]. rewrite <- !app_assoc. cbn [app]. exact E2.
Qed.

(** ** Words *)
Lemma cmf_tail a w : colon_may_follow (a ++ w) -> colon_may_follow w.
Proof. intros H c r E. apply (H c (r ++ rev a)). rewrite rev_app_distr, E. reflexivity. Qed.
Definition ok_follow (w f : str) : Prop :=
  f = [] \/ exists c r, f = c :: r /\ (isblank c = true \/ (c = c_colon \/ c = c_amp /\ exists r', r = c_colon :: r') /\ colon_may_follow w).
Lemma ok_tail a w f : ok_follow (a ++ w) f -> ok_follow w f.
Proof. intros [H|(c & r & E & [H|(H & C)])]; [left; exact H|right; exists c, r; split; [exact E|left; exact H]|right; exists c, r; split; [exact E|right; split; [exact H|exact (cmf_tail a w C)]]]. Qed.
Lemma blank_chars c : isblank c = true -> c = c_sp \/ c = c_tab.
Proof. unfold isblank. intros H. apply orb_true_iff in H. destruct H as [H|H]; apply eqc_true in H; auto. Qed.
Lemma word_head c w : word (c :: w) -> c <> c_eq /\ c <> c_colon /\ c <> c_semi.
Proof.
  intros H. inversion H as [|? ? A B C|? ? A B|? A B|? ? A B C|? ? ? ? A B C]; subst; (split; [|split]); try discriminate; intros ->; apply B; cbn; auto.
Qed.
Lemma head_not_eq w f d r : word w -> ok_follow w f -> w ++ f = d :: r -> (d =?c c_eq) = false.
Proof.
  intros W O E. apply Ascii.eqb_neq. intros ->. destruct w as [|x w]; cbn [app] in E.
  - destruct O as [-> |(c & q & -> & [B|([-> |[-> _]] & _)])]; [discriminate| | |]; injection E as E _; subst; discriminate.
  - injection E as -> _. destruct (word_head _ _ W) as [X _]. congruence.
Qed.
Lemma head_not_colon x w f d r : word w -> ok_follow (x :: w) f -> x = c_amp \/ x = c_bslash -> w ++ f = d :: r -> (d =?c c_colon) = false.
Proof.
  intros W O X E. apply Ascii.eqb_neq. intros ->. destruct w as [|y w]; cbn [app] in E.
  - destruct O as [-> |(c & q & -> & [B|(_ & C)])]; [discriminate| |].
    + injection E as -> _. discriminate.
    + destruct (C x [] eq_refl) as [C1 C2]. destruct X as [X|X]; [apply C2|apply C1]; rewrite X; reflexivity.
  - injection E as -> _. destruct (word_head _ _ W) as (_ & Y & _). congruence.
Qed.
Lemma mword_spec w : word w -> forall fuel f, length (w ++ f) < fuel -> ok_follow w f -> mword_loop fuel (w ++ f) = (w, f).
Proof.
  induction 1 as [|c w B N W IH|c w N W IH|w N W IH|d w H1 H2 W IH|op cl b w B N W IH]; intros fuel f L O; (destruct fuel as [|fuel]; [cbn in L; lia|]).
  - cbn [app]. destruct O as [-> |(c & r & -> & [B|([-> |[-> (r' & ->)]] & C)])]; [reflexivity| | |]; cbn [mword_loop].
    + destruct (blank_chars _ B) as [-> | ->]; reflexivity.
    + reflexivity.
    + reflexivity.
  - assert (IH' : mword_loop fuel (w ++ f) = (w, f)) by (apply IH; [cbn in L; lia|exact (ok_tail [c] w f O)]).
    cbn [app mword_loop]. rewrite IH'. unfold isblank in B. rewrite B. cbn [orb].
    rewrite (nin_neq c _ c_eq N), (nin_neq c _ c_colon N), (nin_neq c _ c_dollar N), (nin_neq c _ c_bslash N) by (cbn; auto 10). cbn [orb].
    destruct ((c =?c c_quest) || (c =?c c_plus)) eqn:E.
    + destruct (w ++ f) as [|d r] eqn:Q; [reflexivity|]. rewrite (head_not_eq w f d r W (ok_tail [c] w f O) Q). reflexivity.
    + destruct (c =?c c_amp) eqn:E2; [|reflexivity]. apply eqc_true in E2. destruct (w ++ f) as [|d r] eqn:Q; [reflexivity|].
      rewrite (head_not_colon c w f d r W O (or_introl E2) Q). reflexivity.
  - cbn [app mword_loop]. change (c_bslash =?c c_sp) with false. change (c_bslash =?c c_tab) with false. change (c_bslash =?c c_eq) with false. change (c_bslash =?c c_colon) with false. change (c_bslash =?c c_dollar) with false.
    change (c_bslash =?c c_quest) with false. change (c_bslash =?c c_plus) with false. change (c_bslash =?c c_bslash) with true. cbn [orb].
    assert (X : (c =?c c_colon) || (c =?c c_semi) || (c =?c c_eq) || (c =?c c_bslash) = true) by (cbn in N; destruct N as [<- |[<- |[<- |[<- |[]]]]]; reflexivity).
    rewrite X, IH; [reflexivity|cbn in L; lia|exact (ok_tail [c_bslash; c] w f O)].
  - assert (IH' : mword_loop fuel (w ++ f) = (w, f)) by (apply IH; [cbn in L; lia|exact (ok_tail [c_bslash] w f O)]).
    cbn [app mword_loop]. rewrite IH'. change (c_bslash =?c c_sp) with false. change (c_bslash =?c c_tab) with false. change (c_bslash =?c c_eq) with false. change (c_bslash =?c c_colon) with false. change (c_bslash =?c c_dollar) with false.
    change (c_bslash =?c c_quest) with false. change (c_bslash =?c c_plus) with false. change (c_bslash =?c c_bslash) with true. cbn [orb].
    destruct (w ++ f) as [|d r] eqn:Q; [reflexivity|].
    assert (X : (d =?c c_colon) || (d =?c c_semi) || (d =?c c_eq) || (d =?c c_bslash) = false).
    { destruct w as [|y w]; cbn [app] in Q.
      - rewrite (head_not_colon c_bslash [] f d r W O (or_intror eq_refl) Q). subst f. destruct O as [O|(c & q & E & [B|(_ & C)])]; [discriminate| |].
        + injection E as -> _. destruct (blank_chars _ B) as [-> | ->]; reflexivity.
        + destruct (C c_bslash [] eq_refl) as [C1 _]. congruence.
      - injection Q as -> _. specialize (N d w eq_refl). rewrite (nin_neq d _ c_colon N), (nin_neq d _ c_semi N), (nin_neq d _ c_eq N), (nin_neq d _ c_bslash N) by (cbn; auto). reflexivity. }
    rewrite X. reflexivity.
  - cbn [app mword_loop]. change (c_dollar =?c c_sp) with false. change (c_dollar =?c c_tab) with false. change (c_dollar =?c c_eq) with false. change (c_dollar =?c c_colon) with false. change (c_dollar =?c c_dollar) with true. cbn [orb].
    rewrite (proj2 (Ascii.eqb_neq d c_lparen) H1), (proj2 (Ascii.eqb_neq d c_lbrace) H2). cbn [orb]. rewrite IH; [reflexivity|cbn in L; lia|exact (ok_tail [c_dollar; d] w f O)].
  - cbn [app mword_loop]. change (c_dollar =?c c_sp) with false. change (c_dollar =?c c_tab) with false. change (c_dollar =?c c_eq) with false. change (c_dollar =?c c_colon) with false. change (c_dollar =?c c_dollar) with true. cbn [orb].
    assert (Q : (op =?c c_lparen) || (op =?c c_lbrace) = true /\ (if op =?c c_lparen then c_rparen else c_rbrace) = cl) by (destruct B as [[-> ->]|[-> ->]]; split; reflexivity).
    destruct Q as [-> ->]. rewrite <- app_assoc. cbn [app]. rewrite (skip_call op cl (brackets_ne _ _ B) b (w ++ f) N), IH.
    + rewrite <- app_assoc. reflexivity.
    + cbn [app length] in L. rewrite <- app_assoc in L. cbn [app] in L. rewrite app_length in L. cbn [length] in L. lia.
    + apply (ok_tail (c_dollar :: op :: b ++ [cl])). cbn [app]. rewrite <- app_assoc. exact O.
Qed.
Lemma skip_blank_app b s : blanks b -> skip_blank (b ++ s) = skip_blank s.
Proof. induction b as [|c b IH]; intros H; [reflexivity|]. cbn [app skip_blank]. rewrite (H c (or_introl eq_refl)). apply IH. intros d I. apply H. right. exact I. Qed.
Lemma word_not_blank c w : word (c :: w) -> isblank c = false.
Proof. intros H. inversion H; subst; try reflexivity. assumption. Qed.
Lemma next_word b w f : blanks b -> word w -> w <> [] -> ok_follow w f -> get_next_mword (b ++ w ++ f) = (w_word, w, f).
Proof.
  intros B W NE O. unfold get_next_mword. rewrite skip_blank_app by exact B. destruct w as [|c w]; [congruence|].
  cbn [app skip_blank]. rewrite (word_not_blank c w W). change (c :: w ++ f) with ((c :: w) ++ f). rewrite (mword_spec _ W); [|cbn; lia|exact O].
  destruct (word_head _ _ W) as (H1 & H2 & H3). rewrite (proj2 (Ascii.eqb_neq c c_semi) H3), (proj2 (Ascii.eqb_neq c c_eq) H1), (proj2 (Ascii.eqb_neq c c_colon) H2). cbn [orb].
  assert (T : forall d r, w ++ f = d :: r -> c <> c_bslash -> c <> c_dollar -> word w).
  { intros d r _ N1 N2. inversion W; subst; try congruence. }
  destruct (c =?c c_amp) eqn:E.
  - apply eqc_true in E. destruct (w ++ f) as [|d r] eqn:Q; [reflexivity|]. rewrite (head_not_colon c w f d r); [reflexivity| |exact O|left; exact E|exact Q]. apply (T d r eq_refl); subst c; discriminate.
  - destruct ((c =?c c_plus) || (c =?c c_quest) || (c =?c c_bang)) eqn:E2; [|reflexivity]. destruct (w ++ f) as [|d r] eqn:Q; [reflexivity|].
    rewrite (head_not_eq w f d r); [reflexivity| |exact (ok_tail [c] w f O)|exact Q]. apply (T d r eq_refl); intros ->; discriminate.
Qed.

(** ** Word by word *)
Lemma unq_hit special s : forall n a r, unq special n s = (a, Some r) -> exists c r', r = c :: r' /\ special c = true.
Proof.
  induction s as [|c s IH]; intros n a r H; cbn [unq] in H; [discriminate|].
  destruct (c =?c c_bslash); [exact (IH _ _ _ H)|]. destruct (special c) eqn:E.
  - destruct (Nat.even n); [injection H as _ <-; exists c, s; auto|]. destruct (unq special 0 s) as [b q] eqn:Q. injection H as _ ->. exact (IH _ _ _ Q).
  - destruct (unq special 0 s) as [b q] eqn:Q. injection H as _ ->. exact (IH _ _ _ Q).
Qed.
Lemma find_upto c s : c <> c_bslash -> exists a r, find_char_unquote s c = mkfound a r /\ (forall x, upto c s = (x, None) <-> r = None /\ x = a) /\ (forall x y, upto c s = (x, Some y) <-> r = Some (c :: y) /\ x = a).
Proof.
  intros H. rewrite find_char_unquote_spec by exact H. unfold upto. destruct (unq (fun x => x =?c c) 0 s) as [a r] eqn:Q. exists a, r. split; [reflexivity|].
  destruct r as [r|].
  - destruct (unq_hit _ _ _ _ _ Q) as (d & r' & -> & E). apply eqc_true in E. subst d. split; [intros x; split; [discriminate|intros [E _]; discriminate]|]. intros x y. split; [intros E; injection E as <- <-; auto|intros [E ->]; injection E as ->; reflexivity].
  - split; [intros x; split; [intros E; injection E as <-; auto|intros [_ ->]; reflexivity]|]. intros x y. split; [discriminate|intros [E _]; discriminate].
Qed.
Lemma upto_none c s : c <> c_bslash -> ~ In c s -> upto c s = (s, None).
Proof.
  intros H N. unfold upto. assert (G : forall t n, ~ In c t -> unq (fun x => x =?c c) n t = (repeat c_bslash n ++ t, None)).
  { clear - H. induction t as [|d t IH]; intros n N; cbn [unq]; [rewrite app_nil_r; reflexivity|]. destruct (d =?c c_bslash) eqn:E.
    - apply eqc_true in E. subst d. rewrite IH by (intros I; apply N; right; exact I). rewrite repeat_snoc_app. reflexivity.
    - assert (D : (d =?c c) = false) by (apply Ascii.eqb_neq; intros ->; apply N; left; reflexivity). rewrite D, IH by (intros I; apply N; right; exact I). reflexivity. }
  rewrite (G s 0 N). reflexivity.
Qed.

Section Words.
  Variable expand : str -> str.
  Hypothesis expand_plain : forall s, ~ In c_dollar s -> expand s = s.
  Notation words := (M_RuleLine.words expand).

  Lemma words_none fuel pre p2 cmd rest x : target_text cmd p2 x ->
    words (S fuel) pre p2 cmd rest = match get_next_mword rest with (w_eol, _, _) => Some (inl (pre ++ x)) | (_, w, rest') => words fuel (pre ++ x ++ [c_sp]) (expand w) cmd rest' end.
  Proof.
    intros (y & H1 & H2). cbn [M_RuleLine.words].
    destruct (find_upto c_colon y ltac:(discriminate)) as (a & r & F & N & _). apply N in H2. destruct H2 as [-> ->].
    destruct cmd as [c|].
    - subst y. rewrite F. cbn [f_rest f_before]. reflexivity.
    - destruct (find_upto c_semi p2 ltac:(discriminate)) as (a' & r & F' & N' & _). apply N' in H1. destruct H1 as [-> ->].
      rewrite F'. cbn [f_rest f_before]. rewrite F. cbn [f_rest f_before]. reflexivity.
  Qed.
  Lemma words_layout t ws : layout t ws -> forall cmd xs, Forall2 (fun w x => target_text cmd (expand w) x) ws xs ->
    forall f, (f = [] \/ exists c r, f = c :: r /\ (c = c_colon \/ c = c_amp /\ exists r', r = c_colon :: r') /\ colon_may_follow t) ->
    forall fuel pre p2 x, target_text cmd p2 x -> length (t ++ f) < fuel ->
    exists fuel', (f <> [] -> 0 < fuel') /\
    words (S fuel) pre p2 cmd (t ++ f) =
      match get_next_mword f with
      | (w_eol, _, _) => Some (inl (pre ++ removelast (spaced (x :: xs))))
      | (_, w, rest') => words fuel' (pre ++ spaced (x :: xs)) (expand w) cmd rest' end.
  Proof.
    induction 1 as [b B|b w t ws B W NE T LA IH]; intros cmd xs F f O fuel pre p2 x X L.
    - inversion F; subst. exists fuel. split.
      + intros NF. rewrite app_length in L. destruct f; [congruence|]. cbn in L. lia.
      + rewrite (words_none _ _ _ _ _ x X).
        assert (G : get_next_mword (b ++ f) = get_next_mword f) by (unfold get_next_mword; rewrite skip_blank_app by exact B; reflexivity).
        rewrite G. unfold spaced. cbn [flat_map]. rewrite !app_nil_r, removelast_last. destruct (get_next_mword f) as [[ty w] r]. destruct ty; reflexivity.
    - inversion F as [|? x' ? xs' X' F']; subst. rewrite (words_none _ _ _ _ _ x X), <- !app_assoc.
      assert (OK : ok_follow w (t ++ f)).
      { destruct t as [|c r]; [|right; exists c, (r ++ f); split; [reflexivity|left; exact (T c r eq_refl)]]. cbn [app].
        destruct O as [-> |(c & r & -> & O & C)]; [left; reflexivity|]. right. exists c, r. split; [reflexivity|]. right. split; [exact O|]. rewrite app_nil_r in C. exact (cmf_tail b w C). }
      rewrite (next_word b w (t ++ f) B W NE OK).
      assert (LL : length (t ++ f) < pred fuel).
      { rewrite !app_length in *. destruct w; [congruence|]. cbn [length] in L. lia. }
      destruct fuel as [|fuel]; [lia|]. cbn [pred] in LL.
      destruct (IH cmd xs' F' f) with (fuel := fuel) (pre := pre ++ x ++ [c_sp]) (p2 := expand w) (x := x') as (fuel' & A & E).
      + destruct O as [-> |(c & r & -> & O & C)]; [left; reflexivity|]. right. exists c, r. split; [reflexivity|]. split; [exact O|]. rewrite app_assoc in C. exact (cmf_tail _ _ C).
      + exact X'.
      + exact LL.
      + exists fuel'. split; [exact A|]. rewrite E. destruct (get_next_mword f) as [[ty v] r].
        assert (Q : spaced (x :: x' :: xs') = (x ++ [c_sp]) ++ spaced (x' :: xs')) by reflexivity.
        assert (NZ : spaced (x' :: xs') <> []) by (unfold spaced; cbn [flat_map]; destruct x'; discriminate).
        destruct ty; rewrite Q; rewrite ?removelast_app by exact NZ; rewrite <- ?app_assoc; reflexivity.
  Qed.
End Words.

(** ** Behind the colon *)
Definition mark (group : bool) : str := if group then [c_amp; c_colon] else [c_colon].
Lemma colon_word group R : exists ty B0 rest, get_next_mword (mark group ++ R) = (ty, mark group ++ B0, rest) /\ ty <> w_eol /\ R = B0 ++ rest /\
  (B0 = [] /\ (forall r, R <> c_colon :: r) \/ B0 = [c_colon] \/ B0 = [c_eq] \/ exists e r, B0 = [c_colon; e] /\ rest = c_eq :: r).
Proof.
  destruct group; cbn [mark app]; unfold get_next_mword; cbn [skip_blank].
  - change (isblank c_amp) with false. change (c_amp =?c c_semi) with false. change (c_amp =?c c_eq) with false. change (c_amp =?c c_colon) with false. change (c_amp =?c c_amp) with true. change (c_colon =?c c_colon) with true. cbn [orb]. cbv iota.
    destruct R as [|e R]; [exists w_rule, [], []; repeat split; [discriminate|left; split; [reflexivity|discriminate]]|].
    destruct (e =?c c_colon) eqn:E.
    + apply eqc_true in E. subst e. exists w_rule, [c_colon], R. repeat split; [discriminate|]. right. left. reflexivity.
    + exists w_rule, [], (e :: R). repeat split; [discriminate|]. left. split; [reflexivity|]. intros r X. injection X as -> _. discriminate.
  - change (isblank c_colon) with false. change (c_colon =?c c_semi) with false. change (c_colon =?c c_eq) with false. change (c_colon =?c c_colon) with true. cbn [orb]. cbv iota.
    destruct R as [|d R]; [exists w_rule, [], []; repeat split; [discriminate|left; split; [reflexivity|discriminate]]|].
    destruct (d =?c c_eq) eqn:E1; [apply eqc_true in E1; subst d; exists w_op, [c_eq], R; repeat split; [discriminate|auto]|].
    destruct (d =?c c_colon) eqn:E2.
    + apply eqc_true in E2. subst d. destruct R as [|e [|g R]]; [exists w_rule, [c_colon], []; repeat split; [discriminate|auto]|exists w_rule, [c_colon], [e]; repeat split; [discriminate|auto]|].
      destruct (g =?c c_eq) eqn:E3.
      * apply eqc_true in E3. subst g. exists w_op, [c_colon; e], (c_eq :: R). repeat split; [discriminate|]. right. right. right. exists e, R. auto.
      * exists w_rule, [c_colon], (e :: g :: R). repeat split; [discriminate|auto].
    + exists w_rule, [], (d :: R). repeat split; [discriminate|]. left. split; [reflexivity|]. intros r X. injection X as -> _. discriminate.
Qed.
Lemma upto_here c s : c <> c_bslash -> upto c (c :: s) = ([], Some s).
Proof. intros H. unfold upto. cbn [unq]. rewrite (proj2 (Ascii.eqb_neq c c_bslash) H), eqc_refl. reflexivity. Qed.
Lemma words_colon expand fuel pre group B0 cmd rest : ~ In c_semi B0 -> M_RuleLine.words expand (S fuel) pre (mark group ++ B0) cmd rest = Some (inr (pre, group, B0, cmd, rest)).
Proof.
  intros N. cbn [M_RuleLine.words].
  assert (N2 : ~ In c_semi (mark group ++ B0)) by (intros I; apply in_app_or in I; destruct I as [I|I]; [destruct group; cbn in I; intuition discriminate|exact (N I)]).
  assert (F : find_char_unquote (mark group ++ B0) c_semi = mkfound (mark group ++ B0) None).
  { destruct (find_upto c_semi (mark group ++ B0) ltac:(discriminate)) as (a & r & F & Y & _). pose proof (upto_none c_semi _ ltac:(discriminate) N2) as Q. apply Y in Q. destruct Q as [-> <-]. exact F. }
  assert (G : find_char_unquote (mark group ++ B0) c_colon = mkfound (if group then [c_amp] else []) (Some (c_colon :: B0))) by (destruct group; reflexivity).
  destruct cmd as [c|]; [|rewrite F; cbn [f_rest f_before]]; rewrite G; cbn [f_rest f_before]; destruct group; cbn [rev app]; try (change (c_amp =?c c_amp) with true; cbv iota); cbn [rev app]; rewrite app_nil_r; reflexivity.
Qed.

(** ** Assignments *)
Lemma token_unique w t : (forall c, In c w -> isspace c = false) -> space_first t -> end_of_token (w ++ t) = (w, t).
Proof.
  induction w as [|c w IH]; intros H T; cbn [app].
  - destruct t as [|c t]; [reflexivity|]. cbn [end_of_token]. rewrite (T c t eq_refl). reflexivity.
  - cbn [end_of_token]. rewrite (H c (or_introl eq_refl)), IH; [reflexivity| |exact T]. intros d I. apply H. right. exact I.
Qed.
Lemma mods_no_space (m : string) : In m ["export"; "override"; "private"; "define"; "undefine"] -> forall c, In c (s2l m) -> isspace c = false.
Proof. cbn [In]. intros [<- |[<- |[<- |[<- |[<- |[]]]]]] c I; cbn in I; repeat (destruct I as [<- |I]; [reflexivity|]); destruct I. Qed.
Lemma defs_iff p : (exists x, parse_variable_definition p = Some x) <-> definition p.
Proof. split; [intros [[[n f] v] H]; exists n, f, v; apply parse_iff; exact H|intros (n & f & v & H); exists (n, f, v); apply parse_iff; exact H]. Qed.
Lemma assignment_loop_iff fuel : forall over0 p u o, length p < fuel ->
  (assignment_loop fuel over0 p = Some (u, o) <-> exists o', assigns p o' u /\ o = over0 || o').
Proof.
  induction fuel as [|fuel IH]; intros over0 p u o L; [lia|]. cbn [assignment_loop].
  destruct (parse_variable_definition p) as [x|] eqn:PD.
  - assert (D : definition p) by (apply defs_iff; exists x; exact PD). split.
    + intros E. injection E as <- <-. exists false. split; [constructor; exact D|rewrite orb_false_r; reflexivity].
    + intros (o' & A & ->). inversion A; subst; [rewrite orb_false_r; reflexivity|contradiction|contradiction].
  - assert (ND : ~ definition p) by (intros D; apply defs_iff in D; destruct D; congruence).
    destruct (end_of_token p) as [w r] eqn:ET. destruct (end_of_token_spec _ _ _ ET) as (H1 & H2 & H3). subst p.
    assert (SF : space_first r) by (intros c r' E; subst r; exact H3).
    assert (ST : forall m t, In m ["export"; "override"; "private"; "define"; "undefine"] -> s2l m ++ t = w ++ r -> space_first t -> w = s2l m /\ r = t).
    { intros m t I E S. rewrite <- E in ET. rewrite token_unique in ET; [injection ET as <- <-; auto|exact (mods_no_space m I)|exact S]. }
    assert (MD : forall (m : string) over', w = s2l m -> In m ["export"; "override"; "private"] -> over' = over0 || String.eqb m "override" ->
      (match next_token r with [] => None | p' => assignment_loop fuel over' p' end = Some (u, o) <-> exists o', assigns (w ++ r) o' u /\ o = over0 || o')).
    { intros m over' -> I ->. rewrite trim_next. pose proof (trim_length r) as TL.
      assert (LR : length (trim r) < fuel) by (rewrite app_length in L; assert (0 < length (s2l m)) by (cbn in I; destruct I as [<- |[<- |[<- |[]]]]; cbn; lia); lia).
      assert (NT : forall x y, trim r = x :: y -> trim r <> []) by (intros x y ->; discriminate).
      destruct (trim r) as [|x y] eqn:TR.
      - split; [discriminate|]. intros (o' & A & _). inversion A as [? D|m' t ov u' I' ND' SF' NE A' E|m' t I' ND' SF' E]; subst; [contradiction| |].
        + destruct (ST m' t) as [X Y]; [cbn in *; tauto|assumption|assumption|]. subst t. congruence.
        + destruct (ST m' t) as [X Y]; [cbn in *; tauto|assumption|assumption|]. apply (f_equal string_of_list_ascii) in X. unfold s2l in X. rewrite !string_of_list_ascii_of_string in X. subst m'. cbn in I, I'. destruct I as [<- |[<- |[<- |[]]]]; intuition discriminate.
      - rewrite (IH _ (x :: y) u o) by exact LR. split.
        + intros (o' & A & ->). exists (o' || String.eqb m "override"). split; [|rewrite <- !orb_assoc; f_equal; apply orb_comm]. apply as_modifier; [exact I|exact ND|exact SF|congruence|rewrite TR; exact A].
        + intros (o' & A & ->). inversion A as [? D|m' t ov u' I' ND' SF' NE A' E|m' t I' ND' SF' E]; subst; [contradiction| |].
          * destruct (ST m' t) as [X Y]; [cbn in *; tauto|assumption|assumption|]. subst t. apply (f_equal string_of_list_ascii) in X. unfold s2l in X. rewrite !string_of_list_ascii_of_string in X. subst m'. rewrite TR in A'. exists ov. split; [exact A'|]. rewrite <- !orb_assoc. f_equal. apply orb_comm.
          * destruct (ST m' t) as [X Y]; [cbn in *; tauto|assumption|assumption|]. apply (f_equal string_of_list_ascii) in X. unfold s2l in X. rewrite !string_of_list_ascii_of_string in X. subst m'. cbn in I, I'. destruct I as [<- |[<- |[<- |[]]]]; intuition discriminate. }
    cbv zeta.
    destruct (str_eqb w "export") eqn:E1; [apply str_eqb_eq in E1; apply (MD "export"); [exact E1|cbn; auto|rewrite orb_false_r; reflexivity]|].
    destruct (str_eqb w "override") eqn:E2; [apply str_eqb_eq in E2; apply (MD "override"); [exact E2|cbn; auto|rewrite orb_true_r; reflexivity]|].
    destruct (str_eqb w "private") eqn:E3; [apply str_eqb_eq in E3; apply (MD "private"); [exact E3|cbn; auto|rewrite orb_false_r; reflexivity]|].
    destruct (str_eqb w "define" || str_eqb w "undefine") eqn:E4.
    + assert (exists m, w = s2l m /\ In m ["define"; "undefine"]) as (m & -> & I) by (apply orb_true_iff in E4; destruct E4 as [E4|E4]; apply str_eqb_eq in E4; eexists; (split; [exact E4|cbn; auto])).
      rewrite trim_next. split.
      * intros E. injection E as <- <-. exists false. split; [apply as_define; assumption|rewrite orb_false_r; reflexivity].
      * intros (o' & A & ->). inversion A as [? D|m' t ov u' I' ND' SF' NE A' E|m' t I' ND' SF' E]; subst; [contradiction| |].
        -- destruct (ST m' t) as [X Y]; [cbn in *; tauto|assumption|assumption|]. apply (f_equal string_of_list_ascii) in X. unfold s2l in X. rewrite !string_of_list_ascii_of_string in X. subst m'. cbn in I, I'. destruct I as [<- |[<- |[]]]; intuition discriminate.
        -- destruct (ST m' t) as [X Y]; [cbn in *; tauto|assumption|assumption|]. subst t. rewrite orb_false_r. reflexivity.
    + split; [discriminate|]. intros (o' & A & _). exfalso. inversion A as [? D|m' t ov u' I' ND' SF' NE A' E|m' t I' ND' SF' E]; subst; [contradiction| |].
      * destruct (ST m' t) as [X Y]; [cbn in *; tauto|assumption|assumption|]. subst w. cbn in I'. destruct I' as [<- |[<- |[<- |[]]]]; discriminate.
      * destruct (ST m' t) as [X Y]; [cbn in *; tauto|assumption|assumption|]. subst w. cbn in I'. destruct I' as [<- |[<- |[]]]; discriminate.
Qed.
Lemma assignment_iff t u o : parse_var_assignment t = Some (u, o) <-> assigns (trim t) o u.
Proof.
  unfold parse_var_assignment. rewrite trim_next. destruct (trim t) as [|c p] eqn:TR.
  - split; [discriminate|]. intros A. exfalso. inversion A as [? D|m' t' ov u' I' ND' SF' NE A' E|m' t' I' ND' SF' E]; subst.
    + apply defs_iff in D. destruct D as [x D]. discriminate.
    + cbn in I'. destruct I' as [<- |[<- |[<- |[]]]]; discriminate.
    + cbn in I'. destruct I' as [<- |[<- |[]]]; discriminate.
  - rewrite assignment_loop_iff by lia. split; [intros (o' & A & ->); exact A|intros A; exists o; split; [exact A|reflexivity]].
Qed.
Lemma eq_defines s : definition (c_eq :: s).
Proof. apply defs_iff. eexists. reflexivity. Qed.
Lemma char_eq_defines e s : e <> c_hash -> e <> c_dollar -> exists u o, parse_var_assignment (e :: c_eq :: s) = Some (u, o).
Proof.
  intros H1 H2. assert (G : forall p, p <> [] -> definition p -> exists u o, assignment_loop (S (length p)) false p = Some (u, o)).
  { intros p _ D. exists p, false. apply assignment_loop_iff; [lia|]. exists false. split; [constructor; exact D|reflexivity]. }
  unfold parse_var_assignment. cbn [next_token]. destruct (isspace e) eqn:E.
  - change (isspace c_eq) with false. cbv iota. apply G; [discriminate|]. apply eq_defines.
  - apply G; [discriminate|]. apply defs_iff. unfold parse_variable_definition. cbn [next_token]. rewrite E. cbn [parse_loop].
    rewrite (proj2 (Ascii.eqb_neq e c_hash) H1), (proj2 (Ascii.eqb_neq e c_dollar) H2).
    assert (B : isblank e = false) by (destruct (isblank e) eqn:B; [apply isblank_isspace in B; congruence|reflexivity]). rewrite B.
    destruct (assign_op e (c_eq :: s)) as [[f v]|] eqn:A; [eexists; reflexivity|].
    assert (C : (e =?c c_colon) = false) by (destruct (e =?c c_colon) eqn:C; [|reflexivity]; apply eqc_true in C; subst e; discriminate). rewrite C. cbn [length parse_loop].
    change (c_eq =?c c_hash) with false. change (c_eq =?c c_dollar) with false. change (isblank c_eq) with false. cbv iota. cbn [assign_op]. change (c_eq =?c c_eq) with true. cbv iota. eexists. reflexivity.
Qed.

(** ** Small facts for the theorems *)
Lemma whole_app a b : whole a -> whole b -> whole (a ++ b).
Proof.
  intros A B. induction A as [|c t H W IH|d t H1 H2 W IH|op cl x t Br N W IH]; cbn [app]; [exact B|apply wh_char; assumption|apply wh_short; assumption|].
  rewrite <- app_assoc. cbn [app]. apply wh_long; assumption.
Qed.
Lemma whole_plain s : (forall c, In c s -> ~ In c (s2l "$;#")) -> whole s.
Proof. induction s as [|c s IH]; intros H; [constructor|]. apply wh_char; [apply H; left; reflexivity|]. apply IH. intros d I. apply H. right. exact I. Qed.
Lemma unq_recombine c s : c <> c_bslash -> forall n, (n = 0 \/ forall r, s <> c :: r) -> (forall a b, s <> a ++ c_bslash :: c :: b) ->
  let (a, r) := unq (fun x => x =?c c) n s in a ++ match r with Some q => q | None => [] end = repeat c_bslash n ++ s.
Proof.
  intros H. induction s as [|d s IH]; intros n N A; cbn [unq]; [rewrite !app_nil_r; reflexivity|].
  assert (A' : forall a b, s <> a ++ c_bslash :: c :: b) by (intros a b E; apply (A (d :: a) b); rewrite E; reflexivity).
  destruct (d =?c c_bslash) eqn:E.
  - apply eqc_true in E. subst d. specialize (IH (S n)). destruct (unq (fun x => x =?c c) (S n) s) as [a r]. rewrite IH; [rewrite repeat_snoc_app; reflexivity| |exact A'].
    right. intros r' ->. exact (A [] r' eq_refl).
  - destruct (d =?c c) eqn:E2.
    + apply eqc_true in E2. subst d. destruct N as [-> |N]; [reflexivity|]. exfalso. exact (N s eq_refl).
    + specialize (IH 0 (or_introl eq_refl) A'). destruct (unq (fun x => x =?c c) 0 s) as [a r]. rewrite <- app_assoc. cbn [app]. rewrite IH. reflexivity.
Qed.
Lemma raw_upto x : raw_colon 0 x = match snd (upto c_colon x) with Some _ => true | None => false end.
Proof.
  assert (G : forall s n, raw_colon n s = match snd (unq (fun c => c =?c c_colon) n s) with Some _ => true | None => false end).
  { induction s as [|c s IH]; intros n; cbn [raw_colon unq]; [reflexivity|]. destruct (c =?c c_bslash); [apply IH|]. rewrite IH. destruct (c =?c c_colon); cbn [andb].
    - destruct (Nat.even n); [reflexivity|]. destruct (unq (fun c0 => c0 =?c c_colon) 0 s); reflexivity.
    - destruct (unq (fun c0 => c0 =?c c_colon) 0 s); reflexivity. }
  rewrite G. unfold upto. destruct (unq (fun c => c =?c c_colon) 0 x) as [a [r|]] eqn:Q; [|reflexivity]. destruct (unq_hit _ _ _ _ _ Q) as (c & r' & -> & _). reflexivity.
Qed.
Definition col (c : ascii) : bool := c =?c c_colon.
Lemma raw_space sp s : forallb isspace sp = true -> raw_colon 0 (sp ++ s) = raw_colon 0 s.
Proof.
  induction sp as [|c sp IH]; intros H; [reflexivity|]. cbn [forallb] in H. apply andb_true_iff in H. destruct H as [H1 H2]. cbn [app raw_colon].
  assert (E1 : (c =?c c_bslash) = false) by (destruct (c =?c c_bslash) eqn:E; [apply eqc_true in E; subst c; discriminate|reflexivity]).
  assert (E2 : (c =?c c_colon) = false) by (destruct (c =?c c_colon) eqn:E; [apply eqc_true in E; subst c; discriminate|reflexivity]).
  rewrite E1, E2. cbn [andb]. apply IH. exact H2.
Qed.
Lemma raw_word blank s : (forall c, blank c = true -> isblank c = true) -> forall n w rest, unq (fun x => col x || blank x) n s = (w, rest) -> raw_colon n s = match rest with Some q => raw_colon 0 q | None => false end.
Proof.
  intros BL. induction s as [|c s IH]; intros n w rest H; cbn [unq raw_colon] in *; [injection H as _ <-; reflexivity|].
  destruct (c =?c c_bslash) eqn:E; [exact (IH _ _ _ H)|].
  assert (G : forall a b, unq (fun x => col x || blank x) 0 s = (a, b) -> raw_colon 0 s = match b with Some q => raw_colon 0 q | None => false end) by (intros a b; apply IH).
  unfold col at 1 in H. destruct (c =?c c_colon) eqn:C; cbn [orb andb] in *.
  - destruct (Nat.even n) eqn:EV.
    + injection H as _ <-. cbn [raw_colon]. rewrite E, C. reflexivity.
    + destruct (unq (fun x => col x || blank x) 0 s) as [a b] eqn:Q. injection H as _ <-. exact (G a b eq_refl).
  - destruct (blank c) eqn:B.
    + destruct (Nat.even n).
      * injection H as _ <-. cbn [raw_colon]. rewrite E, C. reflexivity.
      * destruct (unq (fun x => col x || blank x) 0 s) as [a b] eqn:Q. injection H as _ <-. exact (G a b eq_refl).
    + destruct (unq (fun x => col x || blank x) 0 s) as [a b] eqn:Q. injection H as _ <-. exact (G a b eq_refl).
Qed.
Lemma reads_raw blank t ws r : (forall c, blank c = true -> isblank c = true) -> reads col blank t ws r -> raw_colon 0 t = match r with [] => false | _ => true end.
Proof.
  intros BL R. induction R as [t T|t c r T ST|t c r w rest ws e T ST U R IH]; destruct (trim_split t) as (sp & E & SP); rewrite E, raw_space by exact SP; rewrite T.
  - reflexivity.
  - unfold col in ST. apply eqc_true in ST. subst c. reflexivity.
  - rewrite (raw_word blank (c :: r) BL 0 w rest U). destruct rest as [q|]; [exact IH|]. cbn [raw_colon] in IH. exact IH.
Qed.
Lemma seq_reads stop oneword nostrip noar noglob exist nocache prefix tilde glob members : stop c_bslash = false -> forall fuel size grp p l r,
  seq_loop stop oneword nostrip noar noglob exist nocache prefix tilde glob members fuel size grp p = Names l r ->
  exists ws, reads stop (fun c => negb oneword && isblank c) p ws r.
Proof.
  intros SB. induction fuel as [|fuel IH]; intros size grp p l r H; cbn [seq_loop] in H; [discriminate|]. rewrite trim_next in H. destruct (trim p) as [|c t] eqn:T.
  - injection H as _ <-. exists []. apply r_end. exact T.
  - destruct (stop c) eqn:SC; [injection H as _ <-; exists []; eapply r_stop; eassumption|].
    rewrite find_map_unquote_spec in H; [|unfold findmap; rewrite SB; destruct oneword; reflexivity|discriminate].
    destruct (unq (findmap stop oneword) 0 (c :: t)) as [w0 rest] eqn:U. cbn [f_rest f_before] in H.
    match type of H with context [if ?a <? ?b then Overrun else _] => destruct (a <? b); [discriminate|] end.
    match type of H with (let '(_, _) := ?m in _) = _ => destruct m as [grp' w'] end.
    assert (G : forall size' grp'' l', seq_loop stop oneword nostrip noar noglob exist nocache prefix tilde glob members fuel size' grp'' (match rest with Some x => x | None => [] end) = Names l' r -> exists ws, reads stop (fun c0 => negb oneword && isblank c0) p ws r).
    { intros size' grp'' l' Q. destruct (IH _ _ _ _ _ Q) as (ws & R). exists (w0 :: ws). eapply r_word; [exact T|exact SC| |exact R]. exact U. }
    assert (PU : forall x o, put x o = Names l r -> exists l', o = Names l' r).
    { intros x o Q. unfold put in Q. destruct x; [|discriminate]. destruct o; try discriminate. injection Q as _ ->. eexists. reflexivity. }
    destruct w' as [|a b]; [exact (G _ _ _ H)|]. destruct grp' as [|a' b'].
    + destruct (PU _ _ H) as (l' & Q). exact (G _ _ _ Q).
    + destruct (ends_paren (a :: b)).
      * destruct (length (a :: b) =? 1); [exact (G _ _ _ H)|]. destruct (PU _ _ H) as (l' & Q). exact (G _ _ _ Q).
      * match type of H with context [if ?a <? ?b then Overrun else _] => destruct (a <? b); [discriminate|] end. destruct (PU _ _ H) as (l' & Q). exact (G _ _ _ Q).
Qed.
Lemma grouped_one w ns : grouped [w] ns -> ns = [w].
Proof.
  intros G. refine (grouped_unique [w] ns G [w] _). apply g_plain; [|constructor]. intros [_ X]. inversion X.
Qed.

(** ** No text is read past its end *)
Lemma mword_shorter fuel : forall s, length (snd (mword_loop fuel s)) <= length s.
Proof.
  induction fuel as [|fuel IH]; intros s; [reflexivity|]. destruct s as [|c s]; [reflexivity|]. cbn [mword_loop].
  assert (ONE : length (snd (let (w, r) := mword_loop fuel s in (c :: w, r))) <= length (c :: s)).
  { pose proof (IH s). destruct (mword_loop fuel s). cbn [snd length] in *. lia. }
  assert (TWO : forall d s', s = d :: s' -> length (snd (let (w, r) := mword_loop fuel s' in (c :: d :: w, r))) <= length (c :: s)).
  { intros d s' ->. pose proof (IH s'). destruct (mword_loop fuel s'). cbn [snd length] in *. lia. }
  destruct ((c =?c c_sp) || (c =?c c_tab) || (c =?c c_eq) || (c =?c c_colon)); [reflexivity|].
  destruct (c =?c c_dollar).
  { destruct s as [|d s']; [cbn; lia|]. destruct ((d =?c c_lparen) || (d =?c c_lbrace)) eqn:DP; [|exact (TWO d s' eq_refl)].
    destruct (M_Def.skip_ref d (if d =?c c_lparen then c_rparen else c_rbrace) 1 s') as [a b] eqn:SK.
    assert (L : s' = a ++ b).
    { apply orb_true_iff in DP. destruct DP as [DP|DP]; apply eqc_true in DP; subst d; refine (proj1 (skip_inv _ _ _ s' 0 a b SK)); discriminate. }
    pose proof (IH b). destruct (mword_loop fuel b). subst s'. cbn [snd length] in *. rewrite app_length. lia. }
  destruct ((c =?c c_quest) || (c =?c c_plus)); [destruct s as [|d s']; [exact ONE|]; destruct (d =?c c_eq); [reflexivity|exact ONE]|].
  destruct (c =?c c_bslash).
  { destruct s as [|d s']; [exact ONE|]. destruct ((d =?c c_colon) || (d =?c c_semi) || (d =?c c_eq) || (d =?c c_bslash)); [exact (TWO d s' eq_refl)|exact ONE]. }
  destruct (c =?c c_amp); [destruct s as [|d s']; [exact ONE|]; destruct (d =?c c_colon); [reflexivity|exact ONE]|exact ONE].
Qed.
Lemma skip_blank_shorter s : length (skip_blank s) <= length s.
Proof. induction s as [|c s IH]; [reflexivity|]. cbn [skip_blank]. destruct (isblank c); cbn [length] in *; lia. Qed.
Lemma skip_blank_head s c p : skip_blank s = c :: p -> isblank c = false.
Proof. induction s as [|d s IH]; [discriminate|]. cbn [skip_blank]. destruct (isblank d) eqn:E; [exact IH|]. intros X. injection X as <- _. exact E. Qed.
Lemma next_mword_shorter s ty w r : get_next_mword s = (ty, w, r) -> ty <> w_eol -> length r < length s.
Proof.
  unfold get_next_mword. pose proof (skip_blank_shorter s) as L. destruct (skip_blank s) as [|c p] eqn:SB; [intros X; injection X as <- _ _; congruence|]. cbn [length] in L.
  assert (CB : isblank c = false) by (exact (skip_blank_head s c p SB)).
  intros H _.
  assert (WORD : (c =?c c_eq) = false -> (c =?c c_colon) = false -> (c =?c c_semi) = false -> (forall d p', p = d :: p' -> ((c =?c c_quest) || (c =?c c_plus)) && (d =?c c_eq) = false) -> (forall d p', p = d :: p' -> (c =?c c_amp) && (d =?c c_colon) = false) ->
     (let (w, r) := mword_loop (S (S (length p))) (c :: p) in (w_word, w, r)) = (ty, w, r) -> length r < length s).
  { intros E1 E2 E3 E4 E5. generalize (S (length p)) as F. intros F. cbn [mword_loop].
    assert (BB : (c =?c c_sp) = false /\ (c =?c c_tab) = false) by (unfold isblank in CB; apply orb_false_iff in CB; exact CB). destruct BB as [-> ->]. rewrite E1, E2. cbn [orb].
    assert (ONE : (let (w0, r0) := (let (w, r) := mword_loop F p in (c :: w, r)) in (w_word, w0, r0)) = (ty, w, r) -> length r < length s).
    { pose proof (mword_shorter F p) as M. destruct (mword_loop F p). intros X. injection X as _ _ <-. cbn [snd] in M. lia. }
    assert (TWO : forall d p', p = d :: p' -> (let (w0, r0) := (let (w, r) := mword_loop F p' in (c :: d :: w, r)) in (w_word, w0, r0)) = (ty, w, r) -> length r < length s).
    { intros d p' EP. pose proof (mword_shorter F p') as M. destruct (mword_loop F p'). intros X. injection X as _ _ <-. cbn [snd] in M. rewrite EP in L. cbn [length] in L. lia. }
    destruct (c =?c c_dollar).
    { destruct p as [|d p']; [intros X; injection X as _ _ <-; cbn; lia|]. destruct ((d =?c c_lparen) || (d =?c c_lbrace)) eqn:DP; [|exact (TWO d p' eq_refl)].
      destruct (M_Def.skip_ref d (if d =?c c_lparen then c_rparen else c_rbrace) 1 p') as [a b] eqn:SK.
      assert (EP : p' = a ++ b).
      { apply orb_true_iff in DP. destruct DP as [DP|DP]; apply eqc_true in DP; subst d; refine (proj1 (skip_inv _ _ _ p' 0 a b SK)); discriminate. }
      match goal with |- context [mword_loop ?f b] => pose proof (mword_shorter f b) as M; destruct (mword_loop f b) end. intros X. injection X as _ _ <-. subst p'. cbn [snd length] in *. rewrite app_length in L. lia. }
    destruct ((c =?c c_quest) || (c =?c c_plus)); [destruct p as [|d p']; [exact ONE|]; specialize (E4 d p' eq_refl); cbn [andb] in E4; rewrite E4; exact ONE|].
    destruct (c =?c c_bslash).
    { destruct p as [|d p']; [exact ONE|]. destruct ((d =?c c_colon) || (d =?c c_semi) || (d =?c c_eq) || (d =?c c_bslash)); [exact (TWO d p' eq_refl)|exact ONE]. }
    destruct (c =?c c_amp) eqn:EA; [destruct p as [|d p']; [exact ONE|]; specialize (E5 d p' eq_refl); cbn [andb] in E5; rewrite E5; exact ONE|exact ONE]. }
  destruct (c =?c c_semi) eqn:E3; [injection H as _ _ <-; lia|]. destruct (c =?c c_eq) eqn:E1; [injection H as _ _ <-; lia|]. cbn [orb] in H.
  destruct (c =?c c_colon) eqn:E2.
  { destruct p as [|d p']; [injection H as _ _ <-; lia|]. cbn [length] in L. destruct (d =?c c_eq); [injection H as _ _ <-; lia|]. destruct (d =?c c_colon); [|injection H as _ _ <-; cbn [length]; lia].
    destruct p' as [|e [|g p'']]; [injection H as _ _ <-; lia|injection H as _ _ <-; lia|]. cbn [length] in L. destruct (g =?c c_eq); injection H as _ _ <-; cbn [length]; lia. }
  destruct (c =?c c_amp) eqn:EA.
  { assert (NQ : (c =?c c_quest) || (c =?c c_plus) = false) by (apply eqc_true in EA; subst c; reflexivity).
    destruct p as [|d p']; [revert H; apply WORD; [reflexivity|reflexivity|reflexivity|discriminate|discriminate]|]. cbn [length] in L.
    destruct (d =?c c_colon) eqn:E; [destruct p' as [|e p'']; [injection H as _ _ <-; cbn; lia|]; cbn [length] in L; destruct (e =?c c_colon); injection H as _ _ <-; cbn [length]; lia|].
    revert H. apply WORD; [reflexivity|reflexivity|reflexivity| |]; intros d' p'' Q; injection Q as <- <-; [rewrite NQ; reflexivity|rewrite E; reflexivity]. }
  destruct ((c =?c c_plus) || (c =?c c_quest) || (c =?c c_bang)) eqn:EO.
  - destruct p as [|d p']; [revert H; apply WORD; [reflexivity|reflexivity|reflexivity|discriminate|discriminate]|]. cbn [length] in L.
    destruct (d =?c c_eq) eqn:E; [injection H as _ _ <-; lia|]. revert H. apply WORD; [reflexivity|reflexivity|reflexivity| |]; intros d' p'' Q; injection Q as <- <-; [rewrite E; apply andb_false_r|reflexivity].
  - revert H. apply WORD; [reflexivity|reflexivity|reflexivity| |]; intros d p' Q; [|reflexivity]. apply orb_false_iff in EO. destruct EO as [EO _]. rewrite orb_comm, EO. reflexivity.
Qed.
Lemma words_fuel expand fuel : forall pre p2 cmd rest, length rest < fuel -> M_RuleLine.words expand fuel pre p2 cmd rest <> None.
Proof.
  induction fuel as [|fuel IH]; intros pre p2 cmd rest L; [lia|]. cbn [M_RuleLine.words].
  assert (G : forall p2 cmd rest, length rest < S fuel ->
    match f_rest (find_char_unquote p2 c_colon) with
        | Some (_ :: r) =>
            match rev (f_before (find_char_unquote p2 c_colon)) with
            | c :: b => if c =?c c_amp then Some (inr (pre ++ rev b, true, r, cmd, rest)) else Some (inr (pre ++ f_before (find_char_unquote p2 c_colon), false, r, cmd, rest))
            | [] => Some (inr (pre ++ f_before (find_char_unquote p2 c_colon), false, r, cmd, rest))
            end
        | _ =>
            match get_next_mword rest with
            | (w_eol, _, _) => Some (inl (pre ++ f_before (find_char_unquote p2 c_colon)))
            | (_, w, rest') => M_RuleLine.words expand fuel (pre ++ f_before (find_char_unquote p2 c_colon) ++ [c_sp]) (expand w) cmd rest'
            end
        end <> None).
  { clear p2 cmd rest L. intros p2 cmd rest L.
    assert (N : match get_next_mword rest with
            | (w_eol, _, _) => Some (inl (pre ++ f_before (find_char_unquote p2 c_colon)))
            | (_, w, rest') => M_RuleLine.words expand fuel (pre ++ f_before (find_char_unquote p2 c_colon) ++ [c_sp]) (expand w) cmd rest'
            end <> None).
    { destruct (get_next_mword rest) as [[ty w] r] eqn:GN. destruct ty; [discriminate|..]; apply IH; pose proof (next_mword_shorter _ _ _ _ GN ltac:(discriminate)); lia. }
    destruct (f_rest (find_char_unquote p2 c_colon)) as [[|c0 r]|]; [exact N| |exact N].
    destruct (rev (f_before (find_char_unquote p2 c_colon))) as [|c b]; [discriminate|]. destruct (c =?c c_amp); discriminate. }
  destruct cmd as [c|]; [apply G; exact L|]. destruct (f_rest (find_char_unquote p2 c_semi)) as [[|c r]|]; apply G; [exact L|cbn; lia|exact L].
Qed.

(** ** Quoted names as targets *)
Lemma unq_run special j : forall m s, unq special m (repeat c_bslash j ++ s) = unq special (m + j) s.
Proof. induction j as [|j IH]; intros m s; cbn [repeat app]; [rewrite Nat.add_0_r; reflexivity|]. cbn [unq]. rewrite eqc_refl, IH. f_equal. lia. Qed.
Lemma unq_parity special s : forall n, snd (unq special (S (S n)) s) = None <-> snd (unq special n s) = None.
Proof.
  induction s as [|c s IH]; intros n; cbn [unq]; [split; reflexivity|]. destruct (c =?c c_bslash); [apply (IH (S n))|].
  destruct (special c); [|destruct (unq special 0 s); split; auto]. cbn [Nat.even]. destruct (Nat.even n); [split; discriminate|]. destruct (unq special 0 s); split; auto.
Qed.
Lemma word_of U : (forall c, In c U -> isblank c = false /\ ~ In c (s2l "=;$")) -> snd (unq col 0 U) = None -> word U.
Proof.
  assert (G : forall k U, length U <= k -> (forall c, In c U -> isblank c = false /\ ~ In c (s2l "=;$")) -> snd (unq col 0 U) = None -> word U); [|exact (G (length U) U (le_n _))].
  clear U. induction k as [|k IH]; intros U L A H; (destruct U as [|c U]; [constructor|]); cbn [length] in L; [lia|].
  destruct (A c (or_introl eq_refl)) as [A1 A2]. assert (A' : forall d, In d U -> isblank d = false /\ ~ In d (s2l "=;$")) by (intros d I; apply A; right; exact I).
  cbn [unq] in H. destruct (c =?c c_bslash) eqn:E.
  - apply eqc_true in E. subst c. destruct U as [|d U]; [apply wo_bslash; [discriminate|constructor]|]. cbn [length] in L.
    assert (A'' : forall x, In x U -> isblank x = false /\ ~ In x (s2l "=;$")) by (intros x I; apply A'; right; exact I).
    cbn [unq] in H. destruct (d =?c c_bslash) eqn:E2.
    + apply eqc_true in E2. subst d. apply wo_quoted; [cbn; tauto|]. apply IH; [lia|exact A''|]. apply (proj1 (unq_parity col U 0) H).
    + unfold col at 1 in H. destruct (d =?c c_colon) eqn:E3.
      * apply eqc_true in E3. subst d. apply wo_quoted; [cbn; tauto|]. apply IH; [lia|exact A''|]. cbn [Nat.even] in H. destruct (unq col 0 U). exact H.
      * apply wo_bslash.
        -- intros x r Q. injection Q as <- <-. destruct (A' d (or_introl eq_refl)) as [_ B]. intros I. cbn in I. destruct I as [I|[I|[I|[I|[]]]]]; subst d; [discriminate|apply B; cbn; tauto|apply B; cbn; tauto|discriminate].
        -- apply IH; [cbn [length]; lia|exact A'|]. cbn [unq]. rewrite E2. unfold col at 1. rewrite E3. destruct (unq col 0 U). exact H.
  - unfold col at 1 in H. destruct (c =?c c_colon) eqn:E3; [discriminate|]. apply wo_char; [exact A1| |].
    + intros I. cbn in I. destruct I as [I|[I|[I|[I|[I|[]]]]]]; subst c; [apply A2; cbn; tauto|discriminate|apply A2; cbn; tauto|apply A2; cbn; tauto|discriminate].
    + apply IH; [lia|exact A'|]. destruct (unq col 0 U). exact H.
Qed.
Lemma unq_cut w : ~ In c_sp w -> forall U n, unq col n (w ++ c_sp :: U) =
  match unq col n w with (a, None) => (a ++ c_sp :: fst (unq col 0 U), snd (unq col 0 U)) | (a, Some r) => (a, Some (r ++ c_sp :: U)) end.
Proof.
  induction w as [|c w IH]; intros N U n; cbn [app unq].
  - change (c_sp =?c c_bslash) with false. change (col c_sp) with false. cbv iota. destruct (unq col 0 U); reflexivity.
  - assert (N' : ~ In c_sp w) by (intros I; apply N; right; exact I). destruct (c =?c c_bslash); [apply IH; exact N'|]. rewrite (IH N' U 0).
    destruct (col c); [destruct (Nat.even n); [reflexivity|]|]; destruct (unq col 0 w) as [a [r|]]; cbn [fst snd]; rewrite <- ?app_assoc; reflexivity.
Qed.
Inductive tidy : str -> Prop :=
| ti_nil : tidy []
| ti_word w U : w <> [] -> ~ In c_sp w -> tidy U -> tidy (w ++ c_sp :: U).
Lemma layout_space U ws : layout U ws -> layout (c_sp :: U) ws.
Proof.
  intros L. destruct L as [b B|b w t ws B W NE T L].
  - apply la_end. intros c [<- |I]; [reflexivity|exact (B c I)].
  - change (c_sp :: b ++ w ++ t) with ((c_sp :: b) ++ w ++ t). apply la_word; [|assumption..]. intros c [<- |I]; [reflexivity|exact (B c I)].
Qed.
Lemma tidy_layout U : tidy U -> (forall c, In c U -> c <> c_tab /\ ~ In c (s2l "=;$")) -> snd (unq col 0 U) = None ->
  exists ws xs, layout U ws /\ Forall2 (fun w x => ~ In c_dollar w /\ ~ In c_semi w /\ upto c_colon w = (x, None)) ws xs /\ spaced xs = fst (unq col 0 U) /\ (U <> [] -> ws <> []).
Proof.
  induction 1 as [|w U NE NS TI IH]; intros A H.
  - exists [], []. split; [apply la_end; intros c []|]. split; [constructor|]. split; [reflexivity|congruence].
  - rewrite unq_cut in H |- * by exact NS. destruct (unq col 0 w) as [a [r|]] eqn:Q; [discriminate|]. cbn [fst snd] in *.
    destruct IH as (ws & xs & L & F & E & _); [intros c I; apply A; apply in_or_app; right; right; exact I|exact H|].
    assert (AW : forall c, In c w -> isblank c = false /\ ~ In c (s2l "=;$")).
    { intros c I. destruct (A c (in_or_app _ _ _ (or_introl I))) as [B C]. split; [|exact C]. unfold isblank. apply orb_false_iff.
      split; apply Ascii.eqb_neq; [intros ->; exact (NS I)|exact B]. }
    exists (w :: ws), (a :: xs). split; [|split; [|split; [|discriminate]]].
    + change (w ++ c_sp :: U) with ([] ++ w ++ c_sp :: U). apply la_word; [intros c []| |exact NE| |apply layout_space; exact L].
      * apply word_of; [exact AW|rewrite Q; reflexivity].
      * intros c r X. injection X as <- _. reflexivity.
    + constructor; [|exact F]. split; [|split].
      * intros I. apply (proj2 (AW _ I)). cbn. tauto.
      * intros I. apply (proj2 (AW _ I)). cbn. tauto.
      * unfold upto. change (fun x => x =?c c_colon) with col. rewrite Q. reflexivity.
    + cbn [spaced flat_map]. fold (spaced xs). rewrite E, <- app_assoc. reflexivity.
Qed.
Definition seps (c : ascii) : bool := col c || isblank c.
Lemma repeat_no_sp k : ~ In c_sp (repeat c_bslash k).
Proof. intros I. apply repeat_spec in I. discriminate. Qed.
Lemma tidy_quote n : forall k p U, ~ In c_sp p -> ~ In c_tab n -> (n = [] -> p <> [] \/ 0 < k) -> (forall l, n <> l ++ [c_sp]) -> tidy U -> tidy (p ++ quote_aux (fun n => 2 * n) seps k n ++ c_sp :: U).
Proof.
  induction n as [|c n IH]; intros k p U NP NT NN NE TI; cbn [quote_aux].
  - rewrite app_assoc. apply ti_word; [|intros I; apply in_app_or in I; destruct I as [I|I]; [exact (NP I)|exact (repeat_no_sp _ I)]|exact TI].
    destruct (NN eq_refl) as [X|X]; [destruct p; [congruence|discriminate]|]. destruct k as [|k]; [lia|]. destruct p; discriminate.
  - assert (NT' : ~ In c_tab n) by (intros I; apply NT; right; exact I). assert (NE' : forall l, n <> l ++ [c_sp]) by (intros l X; apply (NE (c :: l)); rewrite X; reflexivity).
    destruct (c =?c c_bslash); [apply IH; [assumption|assumption|right; lia|assumption..]|].
    destruct (c =?c c_sp) eqn:E.
    + apply eqc_true in E. subst c. change (seps c_sp) with true. cbv iota. rewrite <- app_assoc. cbn [app]. rewrite app_assoc. apply ti_word.
      * rewrite Nat.add_comm. destruct p; discriminate.
      * intros I; apply in_app_or in I; destruct I as [I|I]; [exact (NP I)|exact (repeat_no_sp _ I)].
      * apply (IH 0 []); [intros []|exact NT'| |exact NE'|exact TI]. intros ->. exfalso. exact (NE [] eq_refl).
    + apply eqc_false in E. 
      assert (G : forall j, tidy (p ++ (repeat c_bslash j ++ c :: quote_aux (fun n => 2 * n) seps 0 n) ++ c_sp :: U)).
      { intros j. replace (p ++ (repeat c_bslash j ++ c :: quote_aux (fun n => 2 * n) seps 0 n) ++ c_sp :: U) with ((p ++ repeat c_bslash j ++ [c]) ++ quote_aux (fun n => 2 * n) seps 0 n ++ c_sp :: U) by (rewrite <- !app_assoc; reflexivity).
        apply IH; [|exact NT'| |exact NE'|exact TI].
        - intros I. apply in_app_or in I. destruct I as [I|I]; [exact (NP I)|]. apply in_app_or in I. destruct I as [I|[I|[]]]; [exact (repeat_no_sp _ I)|congruence].
        - left. destruct p; [destruct j; discriminate|discriminate]. }
      destruct (seps c); apply G.
Qed.
Lemma unq_quote n : forall k U, unq col 0 (quote_aux (fun n => 2 * n) seps k n ++ c_sp :: U) = (quote_aux (fun n => 2 * n) isblank k n ++ c_sp :: fst (unq col 0 U), snd (unq col 0 U)).
Proof.
  induction n as [|c n IH]; intros k U; cbn [quote_aux].
  - rewrite unq_run. cbn [unq]. change (c_sp =?c c_bslash) with false. change (col c_sp) with false. cbv iota. destruct (unq col 0 U); reflexivity.
  - destruct (c =?c c_bslash) eqn:E; [apply IH|]. unfold seps at 1. destruct (col c) eqn:C; cbn [orb].
    + assert (B : isblank c = false) by (unfold col in C; apply eqc_true in C; subst c; reflexivity). rewrite B, <- app_assoc. cbn [app]. rewrite unq_run. cbn [Nat.add unq]. rewrite E, C.
      replace (Nat.even (2 * k + 1)) with false by (rewrite Nat.add_1_r, Nat.even_succ, <- Nat.negb_even, Nat.even_mul; reflexivity).
      replace ((2 * k + 1) / 2) with k by (rewrite Nat.mul_comm, Nat.div_add_l by lia; cbn; lia). rewrite IH, <- app_assoc. reflexivity.
    + destruct (isblank c) eqn:B; rewrite <- app_assoc; cbn [app]; rewrite unq_run; cbn [Nat.add unq]; rewrite E, C, IH, <- app_assoc; reflexivity.
Qed.
Lemma quote_in f special n : forall k c, In c (quote_aux f special k n) -> c = c_bslash \/ In c n.
Proof.
  induction n as [|d n IH]; intros k c I; cbn [quote_aux] in I; [left; exact (repeat_spec _ _ _ I)|]. destruct (d =?c c_bslash); [destruct (IH _ _ I); [auto|right; right; assumption]|].
  assert (G : forall j, In c (repeat c_bslash j ++ d :: quote_aux f special 0 n) -> c = c_bslash \/ In c (d :: n)).
  { intros j X. apply in_app_or in X. destruct X as [X|[<- |X]]; [left; exact (repeat_spec _ _ _ X)|right; left; reflexivity|]. destruct (IH _ _ X); [auto|right; right; assumption]. }
  destruct (special d); exact (G _ I).
Qed.

Lemma map_loop_some stop var fuel : forall rp s, length s < fuel -> exists f, find_map_unquote_loop stop var fuel rp s = Some f.
Proof.
  assert (SL : forall s o c d rp, length (snd (M_Quote.skip_ref o c d rp s)) <= length s).
  { induction s as [|y s IH]; intros o c d rp; cbn [M_Quote.skip_ref length snd]; [lia|].
    destruct (y =?c o); [eapply Nat.le_trans; [apply IH|lia]|]. destruct (y =?c c); [destruct d; [cbn [snd]; lia|]|]; (eapply Nat.le_trans; [apply IH|lia]). }
  induction fuel as [|fuel IH]; intros rp s L; [lia|]. cbn [find_map_unquote_loop]. destruct s as [|c s]; [eexists; reflexivity|]. cbn [length] in L.
  destruct (var && (c =?c c_dollar)).
  - destruct s as [|o s]; [eexists; reflexivity|]. cbn [length] in L. destruct ((o =?c c_lparen) || (o =?c c_lbrace)); [|apply IH; lia].
    pose proof (SL s o (if o =?c c_lparen then c_rparen else c_rbrace) 0 (o :: c :: rp)) as Q.
    destruct (M_Quote.skip_ref o (if o =?c c_lparen then c_rparen else c_rbrace) 0 (o :: c :: rp) s) as [a b]. cbn [snd] in Q. apply IH. lia.
  - destruct (stop c); [|apply IH; lia]. destruct (Nat.even (count_bs rp)); [eexists; reflexivity|apply IH; lia].
Qed.

(** ** A colon inside an expanded word *)
(** What a word gives when its expansion has a colon: targets, whether they are a group, the text behind the colon, the
    recipe and the rest of the line. *)
Definition cut_amp (x : str) : str * bool := match rev x with c :: b => if c =?c c_amp then (rev b, true) else (x, false) | [] => (x, false) end.
Lemma words_hit expand fuel pre p2 cmd rest y cmd' rest' x r :
  match cmd with Some _ => y = p2 /\ cmd' = cmd /\ rest' = rest
               | None => upto c_semi p2 = (y, None) /\ cmd' = None /\ rest' = rest \/ exists s, upto c_semi p2 = (y, Some s) /\ cmd' = Some (s ++ expand rest) /\ rest' = [] end ->
  upto c_colon y = (x, Some r) ->
  M_RuleLine.words expand (S fuel) pre p2 cmd rest = Some (inr (pre ++ fst (cut_amp x), snd (cut_amp x), r, cmd', rest')).
Proof.
  intros H U. cbn [M_RuleLine.words].
  destruct (find_upto c_colon y ltac:(discriminate)) as (a & q & F & _ & N). apply N in U. destruct U as [-> ->].
  assert (G : forall cmd rest, match rev a with
            | c :: b => if c =?c c_amp then Some (inr (pre ++ rev b, true, r, cmd, rest)) else Some (inr (pre ++ a, false, r, cmd, rest))
            | [] => Some (inr (pre ++ a, false, r, cmd, rest)) end = Some (@inr str (str * bool * str * option str * str) (pre ++ fst (cut_amp a), snd (cut_amp a), r, cmd, rest))).
  { intros cmd0 rest0. unfold cut_amp. destruct (rev a) as [|c b]; [reflexivity|]. destruct (c =?c c_amp); reflexivity. }
  destruct cmd as [c|].
  - destruct H as (-> & -> & ->). rewrite F. cbn [f_rest f_before]. apply G.
  - destruct (find_upto c_semi p2 ltac:(discriminate)) as (a' & q & F' & N1 & N2). destruct H as [(H & -> & ->)|(s & H & -> & ->)].
    + apply N1 in H. destruct H as [-> ->]. rewrite F'. cbn [f_rest f_before]. rewrite F. cbn [f_rest f_before]. apply G.
    + apply N2 in H. destruct H as [-> ->]. rewrite F'. cbn [f_rest f_before]. rewrite F. cbn [f_rest f_before]. apply G.
Qed.
Lemma words_until expand t all : layout t all -> forall ws w, all = ws ++ [w] -> forall cmd xs, Forall2 (fun w x => target_text cmd (expand w) x) ws xs ->
  forall D, (forall c r, D = c :: r -> isblank c = true) -> forall fuel pre p2 x, target_text cmd p2 x -> length (t ++ D) < fuel ->
  exists fuel' b, blanks b /\ (exists a, t = a ++ b) /\ M_RuleLine.words expand (S fuel) pre p2 cmd (t ++ D) = M_RuleLine.words expand (S fuel') (pre ++ spaced (x :: xs)) (expand w) cmd (b ++ D).
Proof.
  induction 1 as [b B|b v t vs B W NE T LA IH]; intros ws w E cmd xs F D SD fuel pre p2 x X L; [destruct ws; discriminate|].
  rewrite (words_none expand _ _ _ _ _ x X), <- !app_assoc.
  assert (OK : ok_follow v (t ++ D)).
  { destruct t as [|c r]; [|right; exists c, (r ++ D); split; [reflexivity|left; exact (T c r eq_refl)]]. cbn [app]. destruct D as [|c r]; [left; reflexivity|]. right. exists c, r. split; [reflexivity|left; exact (SD c r eq_refl)]. }
  rewrite (next_word b v (t ++ D) B W NE OK).
  assert (LL : length (t ++ D) < pred fuel).
  { rewrite !app_length in *. destruct v; [congruence|]. cbn [length] in L. lia. }
  destruct fuel as [|fuel]; [lia|]. cbn [pred] in LL.
  destruct ws as [|w0 ws]; cbn [app] in E; injection E as -> ->.
  - inversion F; subst. inversion LA; subst. exists fuel, t. split; [assumption|]. split; [exists (b ++ w); rewrite <- app_assoc; reflexivity|]. unfold spaced. cbn [flat_map]. rewrite app_nil_r. reflexivity.
  - inversion F as [|? x' ? xs' X' F']; subst.
    destruct (IH ws w eq_refl cmd xs' F' D SD fuel (pre ++ x ++ [c_sp]) (expand w0) x' X' LL) as (fuel' & b' & B' & (a & EA) & Q). exists fuel', b'. split; [exact B'|]. split; [exists (b ++ w0 ++ a); rewrite EA, <- !app_assoc; reflexivity|]. rewrite Q.
    f_equal. unfold spaced. cbn [flat_map]. rewrite <- !app_assoc. reflexivity.
Qed.
