From Coq Require Import Sorted Permutation.
From Verif Require Import Base M_Hash S_Hash P_Hash Properties_Hash M_Quote S_Quote P_Quote M_Text S_Text P_Text P_Text2.
Open Scope nat_scope.

(** ** patsubst *)
Lemma split_percent_pattern_of : forall p, split_percent (find_percent p) = pattern_of p.
Proof.
  intros p. unfold split_percent, find_percent, pattern_of.
  rewrite find_char_unquote_spec by discriminate.
  destruct (unq (fun c => c =?c c_percent) 0 p) as [b r]. reflexivity.
Qed.

Lemma firstn_S_cons : forall (x : ascii) n l, firstn (S n) (x :: l) = x :: firstn n l.
Proof. reflexivity. Qed.

Lemma at_skipn : forall s k i, at_ (skipn k s) i = at_ s (k + i).
Proof.
  unfold at_. induction s as [|c s IH]; intros k i.
  - rewrite skipn_nil. destruct i; destruct (k + _); reflexivity.
  - destruct k as [|k]; [reflexivity|]. simpl. apply IH.
Qed.

Lemma snoc_eq : forall (u v : str), length u = length v -> u <> [] ->
  firstn (length v - 1) u = firstn (length v - 1) v -> at_ u (length u - 1) = at_ v (length v - 1) -> u = v.
Proof.
  intros u v L Hne H1 H2.
  destruct u as [|a u _] using rev_ind; [contradiction|].
  destruct v as [|b v _] using rev_ind; [rewrite app_length in L; simpl in L; lia|].
  rewrite !app_length in *. simpl in *. assert (Lu : length u = length v) by lia.
  replace (length v + 1 - 1) with (length v) in * by lia. replace (length u + 1 - 1) with (length u) in * by lia.
  rewrite <- Lu in H1 at 1. rewrite !firstn_app, Nat.sub_diag, firstn_all in H1.
  rewrite Lu in *. rewrite Nat.sub_diag in H1.
  rewrite firstn_all in H1. simpl in H1. rewrite !app_nil_r in H1. subst v.
  unfold at_ in H2. rewrite !nth_middle in H2. rewrite H2. reflexivity.
Qed.

Lemma pat_match_iff : forall pre post t,
  pat_match pre post t = true <-> exists stem, t = pre ++ stem ++ post.
Proof.
  intros pre post t. unfold pat_match. split.
  - intros H. rewrite negb_true_iff, !orb_false_iff in H. destruct H as [[H0 H1] H2].
    rewrite H0 in *. cbn [negb andb] in *. rewrite H1 in H2. cbn [negb andb] in H2.
    apply Nat.ltb_ge in H0.
    assert (E1 : firstn (length pre) t = pre).
    { destruct pre as [|a pre]; [reflexivity|]. simpl in H0.
      destruct t as [|b t]; [simpl in H0; lia|].
      cbn [length Nat.ltb Nat.leb andb] in H1.
      rewrite !orb_false_iff, !negb_false_iff in H1. destruct H1 as [[Ha _] Hs].
      apply eqc_true in Ha. unfold at_ in Ha. simpl in Ha. subst b.
      unfold strneq in Hs. apply str_eqb_eq in Hs. simpl in Hs. rewrite Nat.sub_0_r in Hs.
      rewrite (firstn_all2 (n := length pre) pre) in Hs by lia. simpl. rewrite Hs. reflexivity. }
    assert (E2 : skipn (length t - length post) t = post).
    { destruct post as [|a post'] eqn:Ep.
      - simpl. rewrite Nat.sub_0_r. apply skipn_all.
      - rewrite <- Ep in *. assert (Lp : 0 < length post) by (rewrite Ep; simpl; lia).
        apply Nat.ltb_lt in Lp as Lp'. rewrite Lp' in H2. cbn [andb] in H2.
        rewrite !orb_false_iff, !negb_false_iff in H2. destruct H2 as [[Hl _] Hs].
        apply eqc_true in Hl. unfold strneq in Hs. apply str_eqb_eq in Hs.
        assert (Lu : length (skipn (length t - length post) t) = length post) by (rewrite skipn_length; lia).
        apply snoc_eq; auto.
        + intros En. rewrite En in Lu. simpl in Lu. lia.
        + rewrite Lu, at_skipn, <- Hl. f_equal. lia. }
    exists (firstn (length t - (length pre + length post)) (skipn (length pre) t)).
    rewrite <- E1 at 1. rewrite <- E2 at 2.
    rewrite <- (firstn_skipn (length pre) t) at 1. f_equal.
    rewrite <- (firstn_skipn (length t - (length pre + length post)) (skipn (length pre) t)) at 1.
    f_equal. rewrite skipn_add. f_equal. lia.
  - intros [stem ->]. rewrite !app_length.
    assert (F0 : (length pre + (length stem + length post) <? length pre + length post) = false)
      by (apply Nat.ltb_ge; lia).
    rewrite F0. cbn [negb andb orb].
    assert (F1 : (0 <? length pre) &&
      (negb (at_ (pre ++ stem ++ post) 0 =?c at_ pre 0)
       || negb (at_ (pre ++ stem ++ post) (length pre - 1) =?c at_ pre (length pre - 1))
       || negb (strneq (skipn 1 (pre ++ stem ++ post)) (skipn 1 pre) (length pre - 1))) = false).
    { destruct (0 <? length pre) eqn:Ep; [|reflexivity]. apply Nat.ltb_lt in Ep. cbn [andb].
      rewrite !orb_false_iff, !negb_false_iff. unfold at_. rewrite !app_nth1 by lia.
      rewrite !eqc_refl. split; [split; reflexivity|].
      unfold strneq. apply str_eqb_eq. destruct pre as [|a pre]; [simpl in Ep; lia|].
      simpl. rewrite Nat.sub_0_r, firstn_app, Nat.sub_diag. simpl. apply app_nil_r. }
    rewrite F1. cbn [negb andb orb].
    destruct (0 <? length post) eqn:Ep; [|reflexivity]. apply Nat.ltb_lt in Ep. cbn [andb].
    apply negb_true_iff. rewrite !orb_false_iff, !negb_false_iff.
    set (t := pre ++ stem ++ post).
    assert (Lt : length pre + (length stem + length post) = length (pre ++ stem) + length post)
      by (rewrite app_length; lia).
    assert (Es : skipn (length pre + (length stem + length post) - length post) t = post).
    { unfold t. rewrite app_assoc. rewrite Lt.
      replace (length (pre ++ stem) + length post - length post) with (length (pre ++ stem)) by lia.
      apply skipn_app_exact. }
    assert (A : forall i, i < length post ->
      at_ t (length pre + (length stem + length post) - length post + i) = at_ post i).
    { intros i Hi. rewrite <- at_skipn, Es. reflexivity. }
    split; [split|].
    + rewrite <- (A (length post - 1)) by lia.
      replace (length pre + (length stem + length post) - length post + (length post - 1))
        with (length pre + (length stem + length post) - 1) by lia. apply eqc_refl.
    + rewrite <- (A 0) by lia. rewrite Nat.add_0_r. apply eqc_refl.
    + unfold strneq. rewrite Es. apply str_eqb_refl.
Qed.

(** What one word becomes, as a function. *)
Definition word_fun (p r : str * option str) (w : str) : str :=
  match p with
  | (pre, Some post) =>
      if pat_match pre post w
      then fill_in r (firstn (length w - (length pre + length post)) (skipn (length pre) w))
      else w
  | (lit, None) => if str_eqb w lit then fill_in r [] else w
  end.
(** A matching word is dropped if the replacement is the empty string. *)
Definition dropped (p r : str * option str) (w : str) : bool :=
  match p, r with
  | (pre, Some post), ([], None) => pat_match pre post w
  | _, _ => false
  end.

Lemma mid_exact : forall pre stem post : str,
  firstn (length (pre ++ stem ++ post) - (length pre + length post))
         (skipn (length pre) (pre ++ stem ++ post)) = stem.
Proof.
  intros. rewrite skipn_app_exact. rewrite !app_length.
  replace (length pre + (length stem + length post) - (length pre + length post)) with (length stem) by lia.
  rewrite firstn_app, Nat.sub_diag, firstn_all. simpl. apply app_nil_r.
Qed.

Lemma word_fun_spec : forall p r w, word_subst p r w (word_fun p r w).
Proof.
  intros [pre [post|]] r w; simpl.
  - destruct (pat_match pre post w) eqn:E.
    + apply pat_match_iff in E. destruct E as [stem ->]. rewrite mid_exact.
      apply ws_hit. constructor.
    + apply ws_miss. intros stem H. inversion H; subst.
      assert (pat_match pre post (pre ++ stem ++ post) = true) by (apply pat_match_iff; exists stem; reflexivity).
      congruence.
  - destruct (str_eqb w pre) eqn:E.
    + apply str_eqb_eq in E. subst w. apply ws_hit. constructor.
    + apply str_eqb_neq in E. apply ws_miss. intros stem H. inversion H; subst. congruence.
Qed.

Lemma stem_unique : forall p w s1 s2, stem_of p w s1 -> stem_of p w s2 -> s1 = s2.
Proof.
  intros p w s1 s2 H1 H2. inversion H1; subst; inversion H2; subst; [|reflexivity].
  match goal with E : _ = _ |- _ => apply app_inv_head in E; apply app_inv_tail in E; congruence end.
Qed.

Lemma word_subst_fun : forall p r w x y, word_subst p r w x -> word_subst p r w y -> x = y.
Proof.
  intros p r w x y H1 H2. inversion H1; subst; inversion H2; subst; try reflexivity.
  - f_equal. eapply stem_unique; eassumption.
  - exfalso. eapply H0. eassumption.
  - exfalso. eapply H. eassumption.
Qed.

Lemma patsubst_pat_pct : forall text pre post rpre rpct,
  patsubst_expand_pat text pre (Some post) rpre rpct =
  Some (unwords (map (word_fun (pre, Some post) (rpre, rpct))
                     (filter (fun w => negb (dropped (pre, Some post) (rpre, rpct) w)) (words text)))).
Proof.
  intros text pre post rpre rpct. unfold patsubst_expand_pat.
  set (p := (pre, Some post)). set (r := (rpre, rpct)).
  set (g := fun w => if dropped p r w then None else Some (word_fun p r w)).
  (* emit only sees words, which are not empty; adjust on those *)
  rewrite each_token_words. simpl option_map. f_equal.
  assert (F : forall ws o, (forall w, In w ws -> w <> []) ->
    fold_left (patsubst_word pre post rpre rpct) ws o = fold_left (emit g) ws o).
  { induction ws as [|w ws IH]; intros o Hw; [reflexivity|]. cbn [fold_left].
    assert (E1 : patsubst_word pre post rpre rpct o w = emit g o w).
    { unfold patsubst_word, emit, g, word_fun, dropped, p, r.
      specialize (Hw w (or_introl eq_refl)).
      destruct (pat_match pre post w) eqn:Em; cbn [negb orb].
      - destruct rpct as [rpost|].
        + assert (L : (0 <? length w + length rpost) = true).
          { apply Nat.ltb_lt. destruct w; [contradiction|]. simpl. lia. }
          rewrite L, orb_true_r. unfold put_sp, put. cbn [fill_in otext doneany].
          destruct rpre; cbn [otext doneany]; rewrite <- ?app_assoc; cbn [app]; rewrite <- ?app_assoc; reflexivity.
        + rewrite orb_false_r. destruct rpre as [|a rpre].
          * simpl. unfold put. destruct o. simpl. rewrite app_nil_r. reflexivity.
          * reflexivity.
      - destruct rpre; destruct rpct; reflexivity. }
    rewrite E1. apply IH. intros x Hx. apply Hw. right. exact Hx. }
  rewrite F by (intros w Hw; eapply words_props; exact Hw).
  rewrite kill_emit. f_equal. unfold g. generalize (words text) as ws.
  induction ws as [|w ws IH]; [reflexivity|]. cbn [map filter somes].
  destruct (dropped p r w); cbn [negb map somes]; rewrite IH; reflexivity.
Qed.

Lemma raw_of_split : forall r, match snd r with Some x => fst r ++ c_percent :: x | None => fst r end = raw_of r.
Proof. intros [a [b|]]; reflexivity. Qed.

Lemma func_patsubst_lit : forall pat rep text lit,
  pattern_of pat = (lit, None) -> lit <> [] -> no_space lit ->
  exists out, func_patsubst pat rep text = Some out /\
    keep_subst (word_subst (lit, None) (raw_of (pattern_of rep), None)) text out.
Proof.
  intros pat rep text lit Hp Hne Hns. unfold func_patsubst, patsubst_expand.
  rewrite !split_percent_pattern_of, Hp. destruct (pattern_of rep) as [rp rpct] eqn:Er.
  cbn [patsubst_expand_pat]. eexists. split; [apply subst_expand_word; assumption|].
  apply kf_keep. intros w Hw Hn.
  assert (E : match rpct with Some r => rp ++ c_percent :: r | None => rp end = raw_of (rp, rpct))
    by (destruct rpct; reflexivity).
  unfold lit_f. cbn [snd fst] in *. rewrite ?E. pose proof (word_fun_spec (lit, None) (raw_of (rp, rpct), None) w) as S.
  simpl in S. exact S.
Qed.

Lemma func_patsubst_pct : forall pat rep text pre post,
  pattern_of pat = (pre, Some post) ->
  func_patsubst pat rep text =
  Some (unwords (map (word_fun (pre, Some post) (pattern_of rep))
    (filter (fun w => negb (dropped (pre, Some post) (pattern_of rep) w)) (words text)))).
Proof.
  intros pat rep text pre post Hp. unfold func_patsubst, patsubst_expand.
  rewrite !split_percent_pattern_of, Hp. destruct (pattern_of rep) as [rp rpct].
  apply patsubst_pat_pct.
Qed.

Lemma dropped_iff : forall pre post r w, dropped (pre, Some post) r w = true <->
  r = ([], None) /\ exists stem, stem_of (pre, Some post) w stem.
Proof.
  intros pre post r w. unfold dropped. split.
  - destruct r as [[|a r] [x|]]; try discriminate. intros H. split; [reflexivity|].
    apply pat_match_iff in H. destruct H as [stem ->]. exists stem. constructor.
  - intros [-> [stem H]]. inversion H; subst. apply pat_match_iff. exists stem. reflexivity.
Qed.

(** Relational form: which words are kept and what they become. *)
Lemma func_patsubst_pct_rel : forall pat rep text pre post,
  pattern_of pat = (pre, Some post) ->
  exists ws outs, func_patsubst pat rep text = Some (unwords outs) /\
    Forall2 (word_subst (pre, Some post) (pattern_of rep)) ws outs /\
    (pattern_of rep <> ([], None) -> ws = words text) /\
    (pattern_of rep = ([], None) -> exists keep, (forall w, keep w = true <-> forall stem, ~ stem_of (pre, Some post) w stem) /\
       ws = filter keep (words text)).
Proof.
  intros pat rep text pre post Hp. rewrite (func_patsubst_pct pat rep text pre post Hp).
  set (k := fun w => negb (dropped (pre, Some post) (pattern_of rep) w)).
  exists (filter k (words text)), (map (word_fun (pre, Some post) (pattern_of rep)) (filter k (words text))).
  split; [reflexivity|]. split; [|split].
  - induction (filter k (words text)) as [|w l IH]; constructor; [apply word_fun_spec|exact IH].
  - intros Hr. induction (words text) as [|w l IH]; [reflexivity|]. simpl.
    assert (Hk : k w = true).
    { unfold k. apply negb_true_iff. destruct (dropped _ _ _) eqn:E; [|reflexivity].
      apply dropped_iff in E. destruct E. contradiction. }
    rewrite Hk, IH. reflexivity.
  - intros Hr. exists k. split; [|reflexivity]. intros w. unfold k. rewrite negb_true_iff. split.
    + intros E stem Hs. assert (dropped (pre, Some post) (pattern_of rep) w = true).
      { apply dropped_iff. split; [exact Hr|]. exists stem. exact Hs. }
      congruence.
    + intros H. destruct (dropped _ _ _) eqn:E; [|reflexivity].
      apply dropped_iff in E. destruct E as [_ [stem Hs]]. exfalso. eapply H. exact Hs.
Qed.

(** Substitution references. *)
Lemma unq_no_special : forall special s n, (forall c, In c s -> special c = false) ->
  unq special n s = (repeat c_bslash n ++ s, None).
Proof.
  intros special. induction s as [|c s IH]; intros n H; cbn [unq].
  - rewrite app_nil_r. reflexivity.
  - assert (H' : forall c, In c s -> special c = false) by (intros d Hd; apply H; right; exact Hd).
    destruct (c =?c c_bslash) eqn:E.
    + apply eqc_true in E. subst c. rewrite IH by exact H'. rewrite repeat_snoc_app. reflexivity.
    + rewrite (H c) by (left; reflexivity). rewrite IH by exact H'. reflexivity.
Qed.

Lemma pattern_of_plain : forall s, ~ In c_percent s -> pattern_of s = (s, None).
Proof.
  intros s H. unfold pattern_of. rewrite unq_no_special; [reflexivity|].
  intros c Hc. apply Ascii.eqb_neq. intros ->. contradiction.
Qed.

Lemma pattern_of_percent : forall s, pattern_of (c_percent :: s) = ([], Some s).
Proof. reflexivity. Qed.

Lemma subst_ref_plain : forall value a b, ~ In c_percent a ->
  subst_ref value a b = func_patsubst (c_percent :: a) (c_percent :: b) value.
Proof.
  intros value a b Ha. unfold subst_ref, func_patsubst, patsubst_expand.
  rewrite !split_percent_pattern_of, (pattern_of_plain a Ha), !pattern_of_percent.
  destruct value as [|c value]; [|reflexivity].
  rewrite patsubst_pat_pct. reflexivity.
Qed.

Lemma subst_ref_percent : forall value a b pre post, pattern_of a = (pre, Some post) ->
  subst_ref value a b = func_patsubst a b value.
Proof.
  intros value a b pre post Ha. unfold subst_ref, func_patsubst, patsubst_expand.
  rewrite !split_percent_pattern_of, Ha. destruct (pattern_of b) as [r rpct] eqn:Eb.
  destruct value as [|c value]; [|reflexivity].
  rewrite patsubst_pat_pct. reflexivity.
Qed.

(** Empty literal pattern: only a text ending in white space (or empty) gets the
    replacement, at its end. *)
Lemma subst_loop_empty : forall rep fuel t o prev, length t < fuel ->
  (prev = None \/ starts_space t) -> (prev <> None -> t <> []) ->
  subst_loop true [] rep fuel o prev t =
  Some (o ++ t ++ (if match rev t with c :: _ => isspace c | [] => true end then rep else [])).
Proof.
  intros rep. induction fuel as [|k IH]; intros t o prev H Hp Hn; [lia|].
  cbn [subst_loop length Nat.eqb andb skipn].
  destruct (next_token_spec t) as [sp [H1 [H2 H3]]].
  destruct (end_of_token (next_token t)) as [w r] eqn:Ew.
  destruct (end_of_token_spec _ _ _ Ew) as [H5 [H6 H7]].
  assert (Ef : firstn (length t - length (next_token t)) t = sp).
  { pattern t at 1 3. rewrite H2. apply firstn_app_exact. }
  rewrite Ef.
  assert (Et : t = (sp ++ w) ++ r) by (rewrite <- app_assoc, <- H5; exact H2).
  destruct r as [|c r].
  - rewrite orb_false_r. rewrite app_nil_r in Et. rewrite <- Et.
    unfold last_of. destruct (rev t) as [|c l] eqn:Er.
    + assert (t = []) by (rewrite <- (rev_involutive t), Er; reflexivity).
      destruct prev as [c|]; [exfalso; apply Hn; [discriminate|assumption]|]. reflexivity.
    + destruct (isspace c); reflexivity.
  - simpl in H7. rewrite H7. cbn [negb]. rewrite orb_false_r.
    assert (Hw : w <> []).
    { intros ->. simpl in H5. rewrite (H3 c r H5) in H7. discriminate. }
    destruct w as [|d w _] using rev_ind; [contradiction|].
    assert (El : last_of (sp ++ w ++ [d]) prev = Some d).
    { unfold last_of. rewrite app_assoc, rev_app_distr. reflexivity. }
    rewrite El.
    rewrite (H6 d) by (apply in_or_app; right; left; reflexivity). cbn [negb].
    rewrite IH.
    + f_equal. rewrite app_nil_r. rewrite Et. rewrite <- !app_assoc. do 4 f_equal. cbn [app]. f_equal. f_equal.
      rewrite !rev_app_distr. cbn [rev]. destruct (rev r ++ [c]) as [|x l] eqn:Er; [destruct (rev r); discriminate|].
      reflexivity.
    + rewrite Et, !app_length in H. simpl in *. lia.
    + right. exact H7.
    + discriminate.
Qed.

Lemma func_patsubst_empty : forall pat rep text, pattern_of pat = ([], None) ->
  func_patsubst pat rep text =
  Some (text ++ (if match rev text with c :: _ => isspace c | [] => true end
                 then raw_of (pattern_of rep) else [])).
Proof.
  intros pat rep text Hp. unfold func_patsubst, patsubst_expand.
  rewrite !split_percent_pattern_of, Hp. destruct (pattern_of rep) as [rp rpct] eqn:Er.
  cbn [patsubst_expand_pat]. unfold subst_expand. cbn [length Nat.eqb negb andb].
  rewrite subst_loop_empty; [|lia|left; reflexivity|congruence].
  destruct rpct; reflexivity.
Qed.

(** ** filter *)
Lemma pattern_matches_at_iff : forall pre post s,
  pattern_matches_at pre post s = true <-> exists stem, s = pre ++ stem ++ post.
Proof.
  intros pre post s. unfold pattern_matches_at. split.
  - destruct (length s <? length pre + length post) eqn:L; [discriminate|]. cbn [orb].
    apply Nat.ltb_ge in L. destruct (strneq pre s (length pre)) eqn:S; [|discriminate]. cbn [negb].
    intros H. unfold strneq in S. apply str_eqb_eq in S. apply str_eqb_eq in H.
    rewrite firstn_all in S.
    exists (firstn (length s - (length pre + length post)) (skipn (length pre) s)).
    rewrite S at 1. rewrite H at 2.
    rewrite <- (firstn_skipn (length pre) s) at 1. f_equal.
    rewrite <- (firstn_skipn (length s - (length pre + length post)) (skipn (length pre) s)) at 1.
    f_equal. rewrite skipn_add. f_equal. lia.
  - intros [stem ->]. rewrite !app_length.
    assert (F0 : (length pre + (length stem + length post) <? length pre + length post) = false)
      by (apply Nat.ltb_ge; lia).
    rewrite F0. cbn [orb]. unfold strneq. rewrite firstn_all, firstn_app, Nat.sub_diag, firstn_all.
    simpl firstn. rewrite app_nil_r, str_eqb_refl. cbn [negb]. apply str_eqb_eq.
    rewrite app_assoc.
    replace (length pre + (length stem + length post) - length post) with (length (pre ++ stem))
      by (rewrite app_length; lia).
    symmetry. apply skipn_app_exact.
Qed.

Lemma chop_tokens_words : forall fuel s, length s < fuel -> chop_tokens fuel s = Some (words s).
Proof.
  induction fuel as [|k IH]; intros s H; [lia|]. cbn [chop_tokens]. rewrite words_fnt.
  destruct (find_next_token s) as [[w r]|] eqn:E; [|reflexivity].
  pose proof (fnt_len _ _ _ E) as L. destruct (fnt_some _ _ _ E) as [sp [_ [_ [_ [_ [H5 _]]]]]].
  assert (Lt : length (tl r) <= length r) by (destruct r; simpl; lia).
  rewrite IH by lia. simpl. f_equal. f_equal.
  destruct r as [|c r]; [reflexivity|]. simpl in *.
  change (c :: r) with ([c] ++ r). rewrite words_space; [reflexivity|]. intros d [<-|[]]. exact H5.
Qed.

Lemma number_length : forall B (l : list B) n, length (number n l) = length l.
Proof. intros B. induction l; intros n; simpl; auto. Qed.
Lemma number_snd : forall B (l : list B) n, map snd (number n l) = l.
Proof. intros B. induction l; intros n; simpl; congruence. Qed.
Lemma number_nth : forall B (l : list B) n i d, i < length l ->
  nth i (number n l) d = (n + i, nth i l (snd d)).
Proof.
  intros B. induction l as [|x l IH]; intros n i d H; simpl in *; [lia|].
  destruct i as [|i]; [f_equal; lia|]. rewrite IH by lia. f_equal. lia.
Qed.

Lemma number_nth_a : forall (l : list str) i, i < length l ->
  @nth aword i (number 0 l) (0, []) = (i, nth i l []).
Proof. intros l i H. exact (number_nth _ l 0 i (0, []) H). Qed.
Lemma number_len_a : forall (l : list str), @length aword (number 0 l) = length l.
Proof. intros l. apply number_length. Qed.

Section FilterProof.
  Variable h1 h2 : str -> nat.
  Local Notation same := aword_same.
  Local Notation hh1 := (wh1 h1).
  Local Notation hh2 := (wh2 h2).

  Lemma aword_client : client_ok aword same hh1 hh2.
  Proof.
    unfold client_ok, aword_same, wh1, wh2. repeat split.
    - intros a. apply str_eqb_refl.
    - intros a b. destruct (str_eqb (snd a) (snd b)) eqn:E.
      + apply str_eqb_eq in E. rewrite E, str_eqb_refl. reflexivity.
      + apply str_eqb_neq in E. symmetry. apply str_eqb_neq. congruence.
    - intros a b c H1 H2. apply str_eqb_eq in H1, H2. apply str_eqb_eq. congruence.
    - intros a b H. apply str_eqb_eq in H. congruence.
    - intros a b H. apply str_eqb_eq in H. congruence.
  Qed.

  (** The contents after inserting [done]: looking a key up gives the latest one. *)
  Lemma m_find_inserts : forall done k,
    m_find aword same (m_final aword same [] (map Insert done)) k = find (same k) (rev done).
  Proof.
    induction done as [|w done IH] using rev_ind; intros k; [reflexivity|].
    rewrite map_app. unfold m_final. rewrite fold_left_app. simpl fold_left. rewrite rev_app_distr.
    cbn [rev app]. fold (m_final aword same [] (map Insert done)).
    unfold m_find in *. cbn [find]. destruct (same k w) eqn:E; [reflexivity|].
    rewrite <- IH. unfold m_remove. generalize (m_final aword same [] (map Insert done)) as m.
    induction m as [|b m IHm]; [reflexivity|]. cbn [filter].
    destruct (same w b) eqn:Eb; cbn [negb].
    - cbn [find]. rewrite IHm. destruct (same k b) eqn:Ek; [|reflexivity].
      exfalso. unfold aword_same in *. apply str_eqb_eq in Eb, Ek. rewrite Ek, <- Eb, str_eqb_refl in E. discriminate.
    - cbn [find]. destruct (same k b); [reflexivity|exact IHm].
  Qed.

  Definition chstep (ch : list (option nat)) (p : aword * out aword) : list (option nat) :=
    match snd p with
    | OItem r => set ch (fst (fst p)) (option_map fst r)
    | _ => ch end.

  (** Inserting as a run. *)
  Lemma filter_insert_run : forall ws t chain,
    filter_insert h1 h2 t ws chain =
    match run aword same hh1 hh2 t (map Insert ws) with
    | None => None
    | Some (t', rs) =>
        Some (t', fold_left chstep (combine ws rs) chain)
    end.
  Proof.
    induction ws as [|w ws IH]; intros t chain; [reflexivity|].
    cbn [filter_insert map run step]. destruct (insert aword same hh1 hh2 t w) as [[t' o]|]; [|reflexivity].
    rewrite IH. destruct (run aword same hh1 hh2 t' (map Insert ws)) as [[t'' rs]|]; reflexivity.
  Qed.

  Lemma run_app : forall ops1 ops2 t t1 rs1,
    run aword same hh1 hh2 t ops1 = Some (t1, rs1) ->
    run aword same hh1 hh2 t (ops1 ++ ops2) =
    match run aword same hh1 hh2 t1 ops2 with Some (t2, rs2) => Some (t2, rs1 ++ rs2) | None => None end.
  Proof.
    induction ops1 as [|o ops1 IH]; intros ops2 t t1 rs1 H; cbn [run app] in *.
    - inversion H; subst. destruct (run _ _ _ _ _ ops2) as [[? ?]|]; reflexivity.
    - destruct (step _ _ _ _ t o) as [[t' r]|]; [|discriminate].
      destruct (run aword same hh1 hh2 t' ops1) as [[t'' rs]|] eqn:E; [|discriminate].
      inversion H; subst. rewrite (IH ops2 t' t1 rs E).
      destruct (run _ _ _ _ t1 ops2) as [[? ?]|]; reflexivity.
  Qed.

  Lemma outs_ok_app : forall ops1 ops2 m rs1 rs2, length rs1 = length ops1 ->
    outs_ok aword same m (ops1 ++ ops2) (rs1 ++ rs2) <->
    outs_ok aword same m ops1 rs1 /\ outs_ok aword same (m_final aword same m ops1) ops2 rs2.
  Proof.
    induction ops1 as [|o ops1 IH]; intros ops2 m rs1 rs2 H; destruct rs1 as [|r rs1]; simpl in H; try lia.
    - simpl. tauto.
    - cbn [app outs_ok]. rewrite IH by lia. unfold m_final. simpl. tauto.
  Qed.

  Lemma outs_ok_length : forall ops m rs, outs_ok aword same m ops rs -> length rs = length ops.
  Proof.
    induction ops as [|o ops IH]; intros m [|r rs] H; simpl in H; try tauto.
    simpl. f_equal. eapply IH. apply H.
  Qed.

  Lemma inserts_map : forall (ws : list aword), inserts aword (map Insert ws) = length ws.
  Proof.
    unfold inserts. induction ws as [|w ws IH]; [reflexivity|]. simpl in *. rewrite IH. reflexivity.
  Qed.
  Lemma inserts_app : forall (a b : list (op aword)),
    inserts aword (a ++ b) = inserts aword a + inserts aword b.
  Proof.
    intros a b. unfold inserts. rewrite map_app. apply list_sum_app.
  Qed.

  (** Outcome of each insertion: the latest earlier equal word. *)
  Lemma insert_outs : forall ws done rs,
    outs_ok aword same (m_final aword same [] (map Insert done)) (map Insert ws) rs ->
    forall i, i < length ws ->
    nth i rs OUnit = OItem (find (same (nth i ws (0, []))) (rev (done ++ firstn i ws))).
  Proof.
    induction ws as [|w ws IH]; intros done rs H i Hi; simpl in Hi; [lia|].
    destruct rs as [|r rs]; [destruct H|]. cbn [map outs_ok] in H. destruct H as [H1 H2].
    destruct i as [|i].
    - cbn [nth firstn]. rewrite app_nil_r. destruct r as [x| |]; simpl in H1; try tauto.
      rewrite H1, m_find_inserts. reflexivity.
    - cbn [nth firstn]. replace (done ++ w :: firstn i ws) with ((done ++ [w]) ++ firstn i ws)
        by (rewrite <- app_assoc; reflexivity).
      apply IH; [|lia]. rewrite map_app. unfold m_final in *. rewrite fold_left_app. exact H2.
  Qed.

  Lemma fold_set_length : forall (l : list (aword * out aword)) ch,
    length (fold_left chstep l ch) = length ch.
  Proof.
    induction l as [|[w x] l IH]; intros ch; [reflexivity|]. simpl. rewrite IH.
    unfold chstep. destruct x; auto. apply set_length.
  Qed.

  Lemma fold_set_other : forall words n rs ch j, j < n ->
    nth j (fold_left chstep (combine (number n words) rs) ch) None = nth j ch None.
  Proof.
    induction words as [|w words IH]; intros n rs ch j Hj; [reflexivity|].
    destruct rs as [|r rs]; [reflexivity|]. cbn [number combine fold_left]. unfold chstep at 2. cbn [snd fst].
    rewrite IH by lia. destruct r; auto. apply nth_set_neq. lia.
  Qed.

  Lemma chain_nth : forall words n rs ch i x, length rs = length words ->
    n + length words <= length ch -> i < length words ->
    nth i rs OUnit = OItem x ->
    nth (n + i) (fold_left chstep (combine (number n words) rs) ch) None = option_map fst x.
  Proof.
    induction words as [|w words IH]; intros n rs ch i x Hl Hc Hi Hx; simpl in Hi; [lia|].
    destruct rs as [|r rs]; simpl in Hl; [lia|]. cbn [number combine fold_left]. unfold chstep at 2. cbn [snd fst].
    destruct i as [|i].
    - simpl in Hx. subst r. rewrite Nat.add_0_r. rewrite fold_set_other by lia.
      apply nth_set_eq. simpl in Hc. lia.
    - replace (n + S i) with (S n + i) by lia. apply IH; auto; try lia.
      destruct r; rewrite ?set_length; simpl in Hc; lia.
  Qed.

  Definition chain_ok (words : list str) (chain : list (option nat)) : Prop :=
    forall i, i < length words ->
      nth i chain None =
      option_map fst (find (same (i, nth i words [])) (rev (firstn i (number 0 words)))).

  Lemma filter_insert_ok : forall words,
    (N.of_nat (length words) < 2 ^ 63)%N ->
    exists t chain,
      filter_insert h1 h2 (hash_init aword (N.of_nat (length words))) (number 0 words)
                    (repeat None (length words)) = Some (t, chain) /\
      chain_ok words chain /\
      (forall lit, find_item aword same hh1 hh2 t (0, lit) =
                   Some (find (same (0, lit)) (rev (number 0 words)))).
  Proof.
    intros words U. set (ws := number 0 words : list aword).
    assert (Lw : length ws = length words) by apply number_length.
    assert (G : forall fin, inserts aword fin = 0 ->
      exists t rs, run aword same hh1 hh2 (hash_init aword (N.of_nat (length words))) (map Insert ws ++ fin) = Some (t, rs) /\
        outs_ok aword same [] (map Insert ws ++ fin) rs).
    { intros fin Hf. apply (C01_small_hash_refines_map aword same hh1 hh2 aword_client); [exact U|].
      rewrite inserts_app, inserts_map, Hf, Nat2N.id, Nat.add_0_r. apply Nat.eq_le_incl, number_length. }
    destruct (G [] eq_refl) as [t [rs [R1 R2]]]. rewrite app_nil_r in R1, R2.
    rewrite filter_insert_run. fold ws. change (list (nat * str)) with (list aword) in *. rewrite R1. eexists _, _. split; [reflexivity|].
    pose proof (outs_ok_length _ _ _ R2) as Lr. rewrite map_length, Lw in Lr.
    split.
    - intros i Hi. apply (chain_nth words 0 rs); auto; [rewrite repeat_length; lia|].
      rewrite (insert_outs ws [] rs R2 i) by lia. simpl ([] ++ _).
      replace (nth i ws (0, [])) with ((i, nth i words []) : aword); [reflexivity|].
      symmetry. exact (number_nth _ words 0 i (0, []) Hi).
    - intros lit. destruct (G [Find (0, lit)] eq_refl) as [t2 [rs2 [S1 S2]]].
      rewrite (run_app _ _ _ _ _ R1) in S1. cbn [run step] in S1.
      destruct (find_item aword same hh1 hh2 t (0, lit)) as [r|]; [|discriminate].
      inversion S1; subst. apply outs_ok_app in S2; [|rewrite map_length, Lw; exact Lr].
      destruct S2 as [_ S2]. simpl in S2. destruct S2 as [S2 _]. rewrite m_find_inserts in S2.
      rewrite S2. reflexivity.
  Qed.

  (** Marking all words equal to [x] by following the chain. *)
  Lemma firstn_snoc : forall (l : list aword) n d, n < length l ->
    firstn (S n) l = firstn n l ++ [nth n l d].
  Proof.
    induction l as [|a l IH]; intros n d H; simpl in *; [lia|].
    destruct n as [|n]; [reflexivity|]. cbn [firstn nth app]. f_equal. apply IH. lia.
  Qed.

  Lemma mark_chain_ok : forall words chain, chain_ok words chain -> forall n fuel x i0 m,
    n <= fuel -> n <= length words -> length m = length words ->
    exists m', mark_chain fuel chain (option_map fst (find (same (i0, x)) (rev (firstn n (number 0 words))))) m = Some m' /\
      length m' = length words /\
      forall j, j < length words ->
        nth j m' false = nth j m false || ((j <? n) && str_eqb x (nth j words [])).
  Proof.
    intros words chain Hc. induction n as [|n IH]; intros fuel x i0 m Hf Hn Hm.
    - exists m. simpl. destruct fuel; (split; [reflexivity|split; [exact Hm|]]);
        intros j Hj; simpl; rewrite orb_false_r; reflexivity.
    - assert (Ln : n < length (number 0 words)) by (rewrite number_len_a; lia).
      rewrite (firstn_snoc _ _ (0, [])) by exact Ln. rewrite rev_app_distr. cbn [rev app find].
      rewrite number_nth_a by lia. cbn [snd]. simpl (0 + n).
      unfold aword_same at 1. cbn [snd]. destruct (str_eqb x (nth n words [])) eqn:E.
      + cbn [option_map fst]. destruct fuel as [|fuel]; [lia|]. cbn [mark_chain].
        rewrite Hc by lia.
        destruct (IH fuel (nth n words []) n (set m n true)) as [m' [M1 [M2 M3]]];
          [lia|lia|rewrite set_length; exact Hm|].
        exists m'. split; [exact M1|]. split; [exact M2|]. intros j Hj. rewrite M3 by exact Hj.
        apply str_eqb_eq in E. subst x.
        destruct (Nat.eq_dec j n) as [->|Hjn].
        * rewrite nth_set_eq by lia. rewrite str_eqb_refl.
          destruct (Nat.ltb_spec n (S n)); [|lia]. cbn. rewrite orb_true_r. reflexivity.
        * rewrite nth_set_neq by lia. f_equal. f_equal.
          destruct (Nat.ltb_spec j n); destruct (Nat.ltb_spec j (S n)); lia || reflexivity.
      + destruct (IH fuel x i0 m) as [m' [M1 [M2 M3]]]; [lia|lia|exact Hm|].
        exists m'. split; [exact M1|]. split; [exact M2|]. intros j Hj. rewrite M3 by exact Hj.
        f_equal. destruct (Nat.eq_dec j n) as [->|Hjn].
        * rewrite E, !andb_false_r. reflexivity.
        * f_equal. destruct (Nat.ltb_spec j n); destruct (Nat.ltb_spec j (S n)); lia || reflexivity.
  Qed.

  (** One pattern as a boolean test. *)
  Definition pat_test (p : str * option str) (w : str) : bool :=
    match p with
    | (pre, Some post) => pattern_matches_at pre post w
    | (lit, None) => str_eqb lit w
    end.

  Lemma pat_test_iff : forall p w, pat_test p w = true <-> exists stem, stem_of p w stem.
  Proof.
    intros [pre [post|]] w; simpl.
    - rewrite pattern_matches_at_iff. split.
      + intros [stem ->]. exists stem. constructor.
      + intros [stem H]. inversion H; subst. exists stem. reflexivity.
    - rewrite str_eqb_eq. split.
      + intros ->. exists []. constructor.
      + intros [stem H]. inversion H; subst. reflexivity.
  Qed.

  Lemma or_list_length : forall m ws f, length m = length ws -> length (or_list m ws f) = length ws.
  Proof. intros m ws f H. unfold or_list. rewrite map_length, combine_length. lia. Qed.

  Lemma or_list_nth : forall ws m f j, length m = length ws -> j < length ws ->
    nth j (or_list m ws f) false = nth j m false || f (snd (nth j ws (0, []))).
  Proof.
    induction ws as [|w ws IH]; intros m f j H Hj; destruct m as [|b m]; simpl in *; try lia.
    destruct j as [|j]; [reflexivity|]. apply IH; lia.
  Qed.

  Definition tbl_ok (words : list str) (tbl : option (ht aword * list (option nat))) : Prop :=
    match tbl with
    | None => True
    | Some (t, chain) => chain_ok words chain /\
        forall lit, find_item aword same hh1 hh2 t (0, lit) = Some (find (same (0, lit)) (rev (number 0 words)))
    end.

  Lemma filter_pat_ok : forall words tbl, tbl_ok words tbl -> forall m p, length m = length words ->
    exists m', filter_pat h1 h2 (number 0 words) tbl m p = Some m' /\ length m' = length words /\
      forall j, j < length words -> nth j m' false = nth j m false || pat_test p (nth j words []).
  Proof.
    intros words tbl Ht m [pre [post|]] Hm.
    - eexists. split; [reflexivity|]. split; [rewrite or_list_length; rewrite number_len_a; auto|].
      intros j Hj. rewrite or_list_nth by (rewrite number_len_a; auto).
      rewrite number_nth_a by exact Hj. reflexivity.
    - cbn [filter_pat]. destruct tbl as [[t chain]|].
      + destruct Ht as [Hc Hf]. rewrite Hf, number_len_a.
        destruct (mark_chain_ok words chain Hc (length words) (length words) pre 0 m) as [m' [M1 [M2 M3]]];
          auto. rewrite firstn_all2 in M1 by (rewrite number_len_a; lia). rewrite M1.
        exists m'. split; [reflexivity|]. split; [exact M2|]. intros j Hj. rewrite M3 by exact Hj.
        destruct (Nat.ltb_spec j (length words)); [reflexivity|lia].
      + eexists. split; [reflexivity|]. split; [rewrite or_list_length; rewrite number_len_a; auto|].
        intros j Hj. rewrite or_list_nth by (rewrite number_len_a; auto).
        rewrite number_nth_a by exact Hj. cbn [snd pat_test]. f_equal. set (w := nth j words []).
        unfold strneq. destruct (length w =? length pre) eqn:E.
        * apply Nat.eqb_eq in E. rewrite firstn_all. rewrite firstn_all2 by lia. reflexivity.
        * apply Nat.eqb_neq in E. symmetry. apply str_eqb_neq. intros ->. contradiction.
  Qed.

  Lemma filter_pats_ok : forall words tbl, tbl_ok words tbl -> forall ps m, length m = length words ->
    exists m', filter_pats h1 h2 (number 0 words) tbl m ps = Some m' /\ length m' = length words /\
      forall j, j < length words ->
        nth j m' false = nth j m false || existsb (fun p => pat_test p (nth j words [])) ps.
  Proof.
    intros words tbl Ht. induction ps as [|p ps IH]; intros m Hm.
    - exists m. split; [reflexivity|]. split; [exact Hm|]. intros. simpl. rewrite orb_false_r. reflexivity.
    - cbn [filter_pats]. destruct (filter_pat_ok words tbl Ht m p Hm) as [m1 [A1 [A2 A3]]]. rewrite A1.
      destruct (IH m1 A2) as [m2 [B1 [B2 B3]]]. exists m2. split; [exact B1|]. split; [exact B2|].
      intros j Hj. rewrite B3, A3 by exact Hj. simpl. rewrite orb_assoc. reflexivity.
  Qed.

  Lemma emit_filter : forall b words n m o f, length m = length words ->
    (forall j, j < length words -> nth j m false = f (nth j words [])) ->
    fold_left (filter_emit b) (combine m (number n words)) o =
    fold_left (emit (fun w => if (if b then f w else negb (f w)) then Some w else None)) words o.
  Proof.
    intros b. induction words as [|w words IH]; intros n m o f Hl Hf; destruct m as [|x m]; simpl in Hl; try lia.
    - reflexivity.
    - cbn [number combine fold_left]. pose proof (Hf 0 ltac:(simpl; lia)) as H0. simpl in H0. subst x.
      unfold filter_emit at 2, emit at 2. cbn [fst snd].
      destruct (if b then f w else negb (f w)).
      + apply IH; [lia|]. intros j Hj. apply (Hf (S j)). simpl. lia.
      + apply IH; [lia|]. intros j Hj. apply (Hf (S j)). simpl. lia.
  Qed.

  Lemma somes_filter : forall (g : str -> bool) l,
    somes (map (fun w => if g w then Some w else None) l) = filter g l.
  Proof. intros g l. induction l as [|w l IH]; [reflexivity|]. simpl. destruct (g w); simpl; congruence. Qed.

  Lemma func_filter_spec : forall b pats text, (N.of_nat (length text) < 2 ^ 63)%N ->
    func_filter h1 h2 b pats text =
    Some (unwords (filter (fun w =>
       let m := existsb (fun p => pat_test (pattern_of p) w) (words pats) in
       if b then m else negb m) (words text))).
  Proof.
    intros b pats text U. unfold func_filter. rewrite !chop_tokens_words by lia. cbv zeta.
    assert (Lw : forall s, length (words s) <= length s).
    { intros s. remember (length s) as n eqn:En. revert s En. induction n as [n IH] using lt_wf_ind.
      intros s En. rewrite words_fnt. destruct (find_next_token s) as [[w r]|] eqn:E; [|simpl; lia].
      pose proof (fnt_len _ _ _ E). simpl. pose proof (IH (length r) ltac:(lia) r eq_refl). lia. }
    specialize (Lw text).
    rewrite number_len_a.
    set (ps := map (fun p => split_percent (find_percent p)) (words pats)).
    set (lits := length (filter is_literal ps)).
    set (hashing := (2 <=? lits) && (10 <=? lits * length (words text))).
    assert (T : exists tbl, tbl_ok (words text) tbl /\
      (if hashing
       then match filter_insert h1 h2 (hash_init aword (N.of_nat (length (words text)))) (number 0 (words text))
                    (repeat None (length (words text))) with
            | Some x => Some (Some x) | None => None end
       else Some None) = Some tbl).
    { destruct hashing.
      - destruct (filter_insert_ok (words text)) as [t [chain [F1 [F2 F3]]]]; [lia|].
        exists (Some (t, chain)). split; [split; assumption|]. rewrite F1. reflexivity.
      - exists None. split; [exact I|reflexivity]. }
    destruct T as [tbl [Ht Et]]. rewrite Et.
    destruct (filter_pats_ok (words text) tbl Ht ps (repeat false (length (words text)))) as [m [M1 [M2 M3]]];
      [apply repeat_length|].
    assert (Em : forall j, j < length (words text) -> nth j m false =
       (fun w => existsb (fun p => pat_test (pattern_of p) w) (words pats)) (nth j (words text) [])).
    { intros j Hj. rewrite M3 by exact Hj.
      assert (Er : nth j (repeat false (length (words text))) false = false).
      { generalize (length (words text)). intros k. revert j Hj. clear. intros j _. revert j.
        induction k; intros [|j]; simpl; auto. }
      rewrite Er. simpl. unfold ps. clear. induction (words pats) as [|p l IH]; [reflexivity|].
      cbn [map existsb]. rewrite split_percent_pattern_of, IH. reflexivity. }
    destruct (number 0 (words text)) as [|x l] eqn:En.
    - assert (words text = []) by (rewrite <- (number_snd _ (words text) 0), En; reflexivity).
      rewrite H. reflexivity.
    - rewrite M1, <- En.
      refine (eq_trans (f_equal (fun o => Some (kill_last o)) (emit_filter b (words text) 0 m o0 _ M2 Em)) _).
      rewrite kill_emit, somes_filter. reflexivity.
  Qed.
End FilterProof.

Lemma matches_any_iff : forall pats w,
  existsb (fun p => pat_test (pattern_of p) w) (words pats) = true <-> matches_any pats w.
Proof.
  intros pats w. rewrite existsb_exists. unfold matches_any. split.
  - intros [p [H1 H2]]. apply pat_test_iff in H2. destruct H2 as [stem H2]. exists p, stem. auto.
  - intros [p [stem [H1 H2]]]. exists p. split; [exact H1|]. apply pat_test_iff. exists stem. exact H2.
Qed.
